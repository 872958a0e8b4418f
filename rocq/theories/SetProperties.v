(** Property theorems for set (C26-C31). *)
From Verif Require Import Base GoMap GoMapSpec GoMapProofs SetModel SetSpec SetProofs.
From Coq Require Import Floats.SpecFloat.

(** The abstract state [sabs eqb w] of a world: which sets exist and their members. *)

(** C26: for any two set values (also equal ones, also nil) and any iteration order. *)
Theorem C26_set_algebra :
  forall (T : Type) (eqb : T -> T -> bool) (upd : bool) (ord : nat -> list (T * unit) -> list (T * unit))
    a b w r w',
  equivb eqb -> (forall n l, ord n l ≡ₚ l) -> wf eqb w ->
  (forall n, a = Some n \/ b = Some n -> n < next w) ->
  let m := mem (sabs eqb w) in
  (set_step eqb upd ord (SUnion a [b]) w = (r, w') -> exists n, r = SRef (Some n) /\
     s_created (sabs eqb w) (sabs eqb w') n (fun v => m a v \/ m b v)) /\
  (set_step eqb upd ord (SIntersection a b) w = (r, w') -> exists n, r = SRef (Some n) /\
     s_created (sabs eqb w) (sabs eqb w') n (fun v => m a v /\ m b v)) /\
  (set_step eqb upd ord (SDifference a b) w = (r, w') -> exists n, r = SRef (Some n) /\
     s_created (sabs eqb w) (sabs eqb w') n (fun v => m a v /\ ~ m b v)) /\
  (set_step eqb upd ord (SSymmetricDifference a b) w = (r, w') -> exists n, r = SRef (Some n) /\
     s_created (sabs eqb w) (sabs eqb w') n (fun v => (m a v /\ ~ m b v) \/ (m b v /\ ~ m a v))).
Proof. intros T eqb upd ord a b w r w' E ordP. exact (set_algebra eqb upd E ord ordP a b w r w'). Qed.
Print Assumptions C26_set_algebra.

(** C27: every history of all calls (C26, C28 and C31 included). *)
Theorem C27_set_history :
  forall (T : Type) (eqb : T -> T -> bool) (upd : bool) (ord : nat -> list (T * unit) -> list (T * unit)) h w',
  equivb eqb -> (forall n l, ord n l ≡ₚ l) ->
  set_history eqb upd ord (World ∅ 0 0) h w' ->
  exists s0 s, count s0 = 0 /\ (forall r v, ~ mem s0 r v) /\ set_behaves eqb s0 h s.
Proof. intros T eqb upd ord h w' E ordP. exact (set_history_empty eqb upd E ord ordP h w'). Qed.
Print Assumptions C27_set_history.

Definition ex_calls : list (set_call nat) :=
  [ SNew; SPush (Some 0) [3; 1; 3; 2]; SLen (Some 0); SClone (Some 0); SRemove (Some 1) 3;
    SRemove (Some 1) 3; SInsert (Some 1) 9; SInsert (Some 1) 9; SContain (Some 0) 9;
    SDifference (Some 0) (Some 1); SSlice (Some 2); SSymmetricDifference (Some 0) (Some 1);
    SSlice (Some 3); SUnion (Some 0) [Some 1; None; Some 0]; SLen (Some 4);
    SIsSubSet (Some 0) (Some 4); SIsSupperSet (Some 4) (Some 0); SEqual (Some 0) (Some 0);
    SInsert None 1; SCopyFrom (Some 2) (Some 4); SEqual (Some 2) (Some 4); SClear (Some 0);
    SIsEmpty (Some 0); SIntersection (Some 1) (Some 4); SRange (Some 1) (fun v => Nat.ltb v 9) ].
Example ex_C27 :
  exists w, set_history Nat.eqb true (fun _ l => reverse l) (World ∅ 0 0)
    (zip ex_calls
      [ SRef (Some 0); SRef (Some 0); SInt 3; SRef (Some 1); SBool true;
        SBool false; SBool true; SBool false; SBool false;
        SRef (Some 2); SList [3]; SRef (Some 3);
        SList [9; 3]; SRef (Some 4); SInt 4;
        SBool true; SBool false; SBool true;
        SPanic; SRef (Some 2); SBool true; SRef (Some 0);
        SBool true; SRef (Some 5); SList [9] ]) w.
Proof. eexists. eapply (set_run_history Nat.eqb true (fun _ l => reverse l) ex_calls). vm_compute. reflexivity. Qed.
Example ex_C27_hyps : equivb Nat.eqb /\ (forall (n : nat) (l : list (nat * unit)), reverse l ≡ₚ l).
Proof.
  split; [repeat split; intros; rewrite ?Nat.eqb_eq in *; congruence|].
  intros _ l. apply reverse_Permutation.
Qed.

(** C28, with the exact behaviour of IsSupperSet. *)
Theorem C28_set_tests :
  forall (T : Type) (eqb : T -> T -> bool) (upd : bool) (ord : nat -> list (T * unit) -> list (T * unit))
    a b w r w',
  equivb eqb -> (forall n l, ord n l ≡ₚ l) -> wf eqb w ->
  (forall n, a = Some n \/ b = Some n -> n < next w) ->
  let m := mem (sabs eqb w) in
  (set_step eqb upd ord (SIsSubSet a b) w = (r, w') -> exists x, r = SBool x /\
     (x = true <-> forall v, m a v -> m b v)) /\
  (set_step eqb upd ord (SEqual a b) w = (r, w') -> exists x, r = SBool x /\
     (x = true <-> forall v, m a v <-> m b v)) /\
  (set_step eqb upd ord (SIsSupperSet a b) w = (r, w') -> exists x, r = SBool x /\
     (x = true <-> ~ forall v, m b v -> m a v)).
Proof. intros T eqb upd ord a b w r w' E ordP. exact (set_tests eqb upd E ord ordP a b w r w'). Qed.
Print Assumptions C28_set_tests.

(** C29 refuted: {1,2} is reported not to be a superset of {1}, and {1} to be one of {1,2}. *)
Theorem C29_set_IsSupperSet_refuted :
  exists w, set_history Nat.eqb false (fun _ l => l) (World ∅ 0 0)
    [ (SNew, SRef (Some 0)); (SPush (Some 0) [1; 2], SRef (Some 0));
      (SNew, SRef (Some 1)); (SPush (Some 1) [1], SRef (Some 1));
      (SIsSupperSet (Some 0) (Some 1), SBool false);
      (SIsSupperSet (Some 1) (Some 0), SBool true) ] w.
Proof.
  eexists. eapply (set_run_history Nat.eqb false (fun _ l => l)
    [SNew; SPush (Some 0) [1; 2]; SNew; SPush (Some 1) [1];
     SIsSupperSet (Some 0) (Some 1); SIsSupperSet (Some 1) (Some 0)]).
  vm_compute. reflexivity.
Qed.
Print Assumptions C29_set_IsSupperSet_refuted.

(** C30 refuted: NaN, with the equality of IEEE-754 floats. *)
Theorem C30_set_NaN_refuted :
  exists w, set_history SFeqb true (fun _ l => l) (World ∅ 0 0)
    [ (SNew, SRef (Some 0)); (SInsert (Some 0) S754_nan, SBool true);
      (SContain (Some 0) S754_nan, SBool false); (SInsert (Some 0) S754_nan, SBool true);
      (SLen (Some 0), SInt 2); (SRemove (Some 0) S754_nan, SBool false);
      (SIsSubSet (Some 0) (Some 0), SBool false); (SEqual (Some 0) (Some 0), SBool false) ] w.
Proof.
  eexists. eapply (set_run_history SFeqb true (fun _ l => l)
    [SNew; SInsert (Some 0) S754_nan; SContain (Some 0) S754_nan; SInsert (Some 0) S754_nan;
     SLen (Some 0); SRemove (Some 0) S754_nan; SIsSubSet (Some 0) (Some 0); SEqual (Some 0) (Some 0)]).
  vm_compute. reflexivity.
Qed.
Print Assumptions C30_set_NaN_refuted.
(** C30 for element types whose == is an equivalence. *)
Theorem C30_set_lawful_elements :
  forall (T : Type) (eqb : T -> T -> bool) (upd : bool) n v w,
  equivb eqb -> wf eqb w -> n < next w ->
  exists b w', set_Insert eqb upd (Some n) v w = Ok (b, w') /\
    set_Contain eqb (Some n) v w' = Ok (true, w') /\
    set_Insert eqb upd (Some n) v w' = Ok (false, w').
Proof. intros T eqb upd n v w E. exact (set_lawful_insert eqb upd E n v w). Qed.
Print Assumptions C30_set_lawful_elements.

(** C31 *)
Theorem C31_set_Clone_CopyFrom :
  forall (T : Type) (eqb : T -> T -> bool) (upd : bool) (ord : nat -> list (T * unit) -> list (T * unit)) w r w',
  equivb eqb -> (forall n l, ord n l ≡ₚ l) -> wf eqb w ->
  (forall m, m < next w -> set_step eqb upd ord (SClone (Some m)) w = (r, w') ->
     exists n, r = SRef (Some n) /\ n <> m /\
       s_created (sabs eqb w) (sabs eqb w') n (mem (sabs eqb w) (Some m))) /\
  (forall n m, n < next w -> m < next w -> set_step eqb upd ord (SCopyFrom (Some n) (Some m)) w = (r, w') ->
     r = SRef (Some n) /\
     s_becomes (sabs eqb w) (sabs eqb w') n
       (fun v => mem (sabs eqb w) (Some n) v \/ mem (sabs eqb w) (Some m) v)).
Proof. intros T eqb upd ord w r w' E ordP. exact (set_copies eqb upd E ord ordP w r w'). Qed.
Print Assumptions C31_set_Clone_CopyFrom.
Theorem C31_set_unmentioned_set_unchanged :
  forall (T : Type) (eqb : T -> T -> bool) (upd : bool) (ord : nat -> list (T * unit) -> list (T * unit)) w h w' n,
  equivb eqb -> (forall n l, ord n l ≡ₚ l) -> wf eqb w ->
  set_history eqb upd ord w h w' ->
  n < next w -> (forall c r, (c, r) ∈ h -> Some n ∉ set_refs c) ->
  forall v, mem (sabs eqb w') (Some n) v <-> mem (sabs eqb w) (Some n) v.
Proof. intros T eqb upd ord w h w' n E ordP. exact (set_history_frame eqb upd E ord ordP w h w' n). Qed.
Print Assumptions C31_set_unmentioned_set_unchanged.
