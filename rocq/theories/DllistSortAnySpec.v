(** Dllist.Sort with a comparison function that has a state of its own: it may answer anything,
    differently each time, and it may count or log its calls. *)
From Verif Require Import Base DllistModel DllistSpec.
Local Open Scope Z_scope.

Section model.
  Context {T A : Type} (zero : T).

  (** dllist.go lines 255-289: [dl_Sort] of DllistModel.v with the state [a] of [cmpLess] handed from
      call to call.  C125_same says that nothing else differs. *)
  Fixpoint dl_SortA (rf fuel : nat) (cmpLess : T -> T -> A -> bool * A) (l : nat) (a : A)
    : M (dworld T) A :=
    match fuel with
    | O => nofuel
    | S fuel =>
        n <- rd_l l l_len ;;
        if n <=? 1 then ret a
        else
          f <- dl_Front l ;; pivot <- rd f e_val ;;
          smaller <- dl_New zero ;; larger <- dl_New zero ;;
          f <- dl_Front l ;; e2 <- el_Next f ;;
          a1 <- el_Range rf e2 (fun e a =>
            v <- rd e e_val ;;
            let ba := cmpLess v pivot a in
            (if fst ba then v <- rd e e_val ;; dl_PushBack smaller v
             else v <- rd e e_val ;; dl_PushBack larger v) ;;;
            ret (true, snd ba)) a ;;
          a2 <- dl_SortA rf fuel cmpLess smaller a1 ;;
          a3 <- dl_SortA rf fuel cmpLess larger a2 ;;
          dl_Clear l ;;;
          dl_Range rf smaller (fun e (_ : unit) => v <- rd e e_val ;; dl_PushBack l v ;;; ret (true, tt)) tt ;;;
          dl_PushBack l pivot ;;;
          dl_Range rf larger (fun e (_ : unit) => v <- rd e e_val ;; dl_PushBack l v ;;; ret (true, tt)) tt ;;;
          ret a3
    end.

  (** A call of Sort; iterations get as much fuel as there are elements, as in [dl_exec]. *)
  Definition sort_call (cmpLess : T -> T -> A -> bool * A) (l : nat) (a : A) : M (dworld T) A := fun w =>
    dl_SortA (S (n_elems w)) (S (n_elems w)) cmpLess l a w.
End model.

Section spec.
  Context {T A : Type}.

  (** The values of a list. *)
  Definition values (w : dworld T) (l : nat) : list T := map (dval (dabs w)) (dseq (dabs w) l).

  (** A function without a state; a function whose calls are counted; one whose calls are logged. *)
  Definition stateless (less : T -> T -> bool) : T -> T -> A -> bool * A := fun x y a => (less x y, a).
  Definition counted (cmp : T -> T -> A -> bool * A) : T -> T -> nat * A -> bool * (nat * A) :=
    fun x y na => let ba := cmp x y (snd na) in (fst ba, (S (fst na), snd ba)).

  (** Every call is possible, with the effect described in DllistSpec.v. *)
  Definition usable (zero : T) (w : dworld T) : Prop :=
    seqs_ok (dabs w) /\
    forall c, call_ok (dabs w) c ->
      exists r w', dl_exec zero c w = Ok (r, w') /\ dl_does (dabs w) (dabs w') c r.
End spec.
