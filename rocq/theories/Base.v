(** Outcomes of Go code and a state monad for code that mutates through pointers. *)
From stdpp Require Export functions prelude list gmap sorting.
From Coq Require Export ZArith Lia.

(** The outcome of a Go call: a result, a run-time panic, or (for loops whose
    termination is not structural) exhaustion of the fuel the model was given.
    Theorems always say [= Ok _] or [= Panic], so [NoFuel] never counts as success. *)
Inductive res (A : Type) : Type :=
| Ok (a : A)
| Panic
| NoFuel.
Arguments Ok {A} a.
Arguments Panic {A}.
Arguments NoFuel {A}.

Definition rbind {A B} (m : res A) (f : A -> res B) : res B :=
  match m with Ok a => f a | Panic => Panic | NoFuel => NoFuel end.

Notation "x <-! m ;; k" := (rbind m (fun x => k))
  (at level 100, m at next level, right associativity).
Notation "' p <-! m ;; k" := (rbind m (fun x => match x with p => k end))
  (at level 100, p pattern, m at next level, right associativity).

(** Computations over a state [S]. *)
Definition M (S A : Type) : Type := S -> res (A * S).

Definition ret {S A} (a : A) : M S A := fun s => Ok (a, s).
Definition bind {S A B} (m : M S A) (f : A -> M S B) : M S B :=
  fun s => match m s with
           | Ok (a, s') => f a s'
           | Panic => Panic
           | NoFuel => NoFuel
           end.
Definition panic {S A} : M S A := fun _ => Panic.
Definition nofuel {S A} : M S A := fun _ => NoFuel.

Notation "x <- m ;; k" := (bind m (fun x => k))
  (at level 100, m at next level, right associativity).
Notation "m ;;; k" := (bind m (fun _ => k))
  (at level 100, right associativity).

(** Go slice / array indexing by a signed index: out of range is a panic. *)
Definition getZ {A} (l : list A) (i : Z) : option A :=
  if bool_decide (0 <= i)%Z then l !! Z.to_nat i else None.

Lemma bind_ok {S A B} (m : M S A) (f : A -> M S B) s a s' :
  m s = Ok (a, s') -> bind m f s = f a s'.
Proof. intros H. unfold bind. by rewrite H. Qed.
Lemma bind_panic {S A B} (m : M S A) (f : A -> M S B) s : m s = Panic -> bind m f s = Panic.
Proof. intros H. unfold bind. by rewrite H. Qed.
Lemma bind_nofuel {S A B} (m : M S A) (f : A -> M S B) s : m s = NoFuel -> bind m f s = NoFuel.
Proof. intros H. unfold bind. by rewrite H. Qed.
