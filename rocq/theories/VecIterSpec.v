(** Range of vec with a callback that changes vectors. *)
From Verif Require Import Base VecModel VecSpec.
Local Open Scope Z_scope.

Section spec.
  Context {T : Type} (zero : T) (growth : nat -> nat -> nat -> nat).
  Context (auto_equal : option (T -> T -> bool)).
  Context (srt srt_stable : (T -> T -> Z) -> list T -> list T).
  Notation W := (vworld T).

  (** The callback, used when there are at least n vectors, does nothing to vectors but make vectors,
      call methods of vectors and write through slices handed out before. *)
  Definition v_callback {B} (n : nat) (f : Z -> T -> B -> M W (bool * B)) : Prop :=
    forall i x b w hs r w', v_reached zero growth auto_equal srt srt_stable (w, hs) -> (n <= w_vn w)%nat -> f i x b w = Ok (r, w') ->
    exists os hs', o_steps zero growth auto_equal srt srt_stable (w, hs) os (w', hs').

  (** One turn of the loop: the vectors before it, the index and the element the callback gets, its
      answer, the vectors after it. *)
  Record turn := mk_turn { t_before : W; t_index : nat; t_elem : T; t_more : bool; t_after : W }.
  Inductive turns {B} (v : nat) (f : Z -> T -> B -> M W (bool * B)) : W -> nat -> B -> list turn -> B -> W -> Prop :=
  | vt_end w i b : (length (vseq w v) <= i)%nat -> turns v f w i b [] b w
  | vt_stop w i x b b' w' : vseq w v !! i = Some x -> f (Z.of_nat i) x b w = Ok ((false, b'), w') ->
      turns v f w i b [mk_turn w i x false w'] b' w'
  | vt_go w i x b b1 w1 ts b2 w2 : vseq w v !! i = Some x -> f (Z.of_nat i) x b w = Ok ((true, b1), w1) ->
      turns v f w1 (S i) b1 ts b2 w2 -> turns v f w i b (mk_turn w i x true w1 :: ts) b2 w2.

  (** Every other element, the first included, or not. *)
  Fixpoint evens (l : list T) : list T := match l with x :: _ :: l => x :: evens l | l => l end.
  Fixpoint odds (l : list T) : list T := match l with _ :: y :: l => y :: odds l | _ => [] end.
  (** The callback removes the element it is given and records it. *)
  Definition remove_current (v : nat) (i : Z) (x : T) (b : list T) : M W (bool * list T) :=
    Remove zero v i ;;; ret (true, b ++ [x]).
  (** The callback appends the element it is given. *)
  Definition push_current (v : nat) (i : Z) (x : T) (b : nat) : M W (bool * nat) :=
    Push zero growth v [x] ;;; ret (true, S b).
End spec.
Arguments turn : clear implicits.
