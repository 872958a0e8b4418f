(** C199, C200: CompactFunc with a comparison that panics. *)
From Coq Require Import ZifyBool ZifyNat.
From Verif Require Import Base VecModel VecSpec VecProofs VecSteps VecHistory VecQuery VecExample VecPanicSpec VecPanic.

Section panic.
  Context {T : Type} (zero : T) (growth : nat -> nat -> nat -> nat) (auto_equal : option (T -> T -> bool)).
  Context (srt srt_stable : (T -> T -> Z) -> list T -> list T).
  (** Sorting returns a permutation. *)
  Context (Hsrt : forall f l, srt f l ≡ₚ l) (Hsrt2 : forall f l, srt_stable f l ≡ₚ l).
  Notation reached := (v_reached zero growth auto_equal srt srt_stable).
  Implicit Types (st : state T) (w : vworld T) (v u : nat).

  Lemma others st v w' u : reached st -> (forall u, u <> v -> w_vec w' u = w_vec (fst st) u) ->
    (forall a, s_arr (v_d (w_vec (fst st) v)) <> Some a -> w_arr w' a = w_arr (fst st) a) ->
    u < w_vn (fst st) -> v < w_vn (fst st) -> u <> v -> vseq w' u = vseq (fst st) u.
  Proof.
    intros Hr Hvec Harr Hu Hv Hne. unfold vseq. rewrite Hvec by done. unfold contents.
    destruct (s_arr (v_d (w_vec (fst st) u))) as [a|] eqn:Ea; [|done]. rewrite Harr; [done|].
    intros Eb. apply Hne. by eapply (i_own _ (reached_inv _ _ _ _ _ Hsrt Hsrt2 _ Hr)).
  Qed.

  (** The first comparison that panics is that of elements p and p - 1: the vector keeps its length; it has
      what is kept of the first p elements, then what was there before. *)
  Theorem C199_half_compacted eq go123 st v p : reached st -> v < w_vn (fst st) -> panics_at eq (vseq (fst st) v) p ->
    exists w', p_CompactFunc zero eq go123 v (fst st) = Some (Panicked w') /\
      vseq w' v = half_compacted eq (vseq (fst st) v) p /\ length (vseq w' v) = length (vseq (fst st) v) /\
      forall u, u < w_vn (fst st) -> u <> v -> vseq w' u = vseq (fst st) u.
  Proof.
    intros Hr Hv Hp. pose proof (i_wf _ (reached_inv _ _ _ _ _ Hsrt Hsrt2 _ Hr) v Hv) as Hwf.
    destruct (panic_state eq zero go123 v (fst st) p Hwf Hp) as (w'&E&Hq&A1&A2&A3). exists w'. split; [done|].
    split; [done|]. split; [rewrite Hq; apply before_length|].
    intros u Hu Hne. apply (others st v w' u); try done. intros u' _. by rewrite A1.
  Qed.

  (** Without a panic the loops do what CompactFunc of the model does. *)
  Theorem C199_returns eq go123 st v : reached st -> v < w_vn (fst st) -> never_panics eq (vseq (fst st) v) ->
    exists w', p_CompactFunc zero eq go123 v (fst st) = Some (Returned w') /\
      vseq w' v = compacted (says eq) (vseq (fst st) v) /\
      forall u, u < w_vn (fst st) -> u <> v -> vseq w' u = vseq (fst st) u.
  Proof.
    intros Hr Hv Hp. pose proof (i_wf _ (reached_inv _ _ _ _ _ Hsrt Hsrt2 _ Hr) v Hv) as Hwf.
    destruct (same_result eq zero go123 v (fst st) Hwf Hp) as (w'&E&Hq&A1&A2&A3). exists w'. split; [done|].
    split; [done|]. intros u Hu Hne. by apply (others st v w' u).
  Qed.

  Lemma dedup_sub (e : T -> T -> bool) : forall l x y, y ∈ dedup e x l -> y ∈ l.
  Proof.
    induction l as [|z l IH]; intros x y; cbn; [done|]. destruct (e z x); rewrite ?elem_of_cons; [eauto|]. intros [->|H]; eauto.
  Qed.
  Lemma compacted_sub (e : T -> T -> bool) l y : y ∈ compacted e l -> y ∈ l.
  Proof. destruct l as [|x l]; [done|]. cbn. rewrite !elem_of_cons. intros [->|H]; [by left|right]. by eapply dedup_sub. Qed.
  Lemma dedup_represents (e : T -> T -> bool) (R : T -> T -> Prop) : (forall x, R x x) -> (forall x y z, R x y -> R y z -> R x z) ->
    (forall x y, e x y = true -> R x y) -> forall l x p, R x p -> forall z, z ∈ x :: l -> exists y, y ∈ p :: dedup e x l /\ R z y.
  Proof.
    intros Hrefl Htr He. induction l as [|a l IH]; intros x p Hxp z Hz.
    { apply elem_of_list_singleton in Hz as ->. exists p. split; [left|done]. }
    apply elem_of_cons in Hz as [->|Hz]; [exists p; split; [left|done]|]. cbn. destruct (e a x) eqn:E.
    - apply (IH a p); [|done]. eapply Htr; [by apply He|done].
    - destruct (IH a a (Hrefl a) z Hz) as (y&Hy&Hr). exists y. split; [|done]. by right.
  Qed.

  (** Nothing new is in the vector, and if equal elements are related by the preorder R then each element
      that was in it is related to one that is in it now: what was overwritten had an equal neighbour. *)
  Theorem C199_elements eq (l : list T) p (R : T -> T -> Prop) : (forall x, R x x) -> (forall x y z, R x y -> R y z -> R x z) ->
    (forall x y, eq x y = Some true -> R x y) -> p <= length l ->
    (forall x, x ∈ half_compacted eq l p -> x ∈ l) /\ (forall x, x ∈ l -> exists y, y ∈ half_compacted eq l p /\ R x y).
  Proof.
    intros Hrefl Htr He Hp. split.
    - intros x [H|H]%elem_of_app.
      + apply compacted_sub in H. rewrite <- (take_drop p l). apply elem_of_app. by left.
      + rewrite <- (take_drop (length (compacted (says eq) (take p l))) l). apply elem_of_app. by right.
    - intros x Hx. rewrite <- (take_drop p l) in Hx. apply elem_of_app in Hx as [Hx|Hx].
      + destruct (take p l) as [|a k] eqn:E; [by apply elem_of_nil in Hx|].
        destruct (dedup_represents (says eq) R Hrefl Htr) with (l := k) (x := a) (p := a) (z := x) as (y&Hy&Hr); [|done..|].
        { intros b c Hbc. apply He. unfold says in Hbc. by destruct (eq b c) as [[]|]. }
        exists y. split; [|done]. unfold half_compacted. rewrite E. apply elem_of_app. by left.
      + exists x. split; [|done]. unfold half_compacted. apply elem_of_app. right.
        pose proof (compacted_length eq (says eq) (take p l)) as Hc. rewrite take_length in Hc.
        apply elem_of_list_lookup in Hx as [i Hi]. rewrite lookup_drop in Hi. apply elem_of_list_lookup.
        exists (p + i - length (compacted (says eq) (take p l))). rewrite lookup_drop, <- Hi. f_equal. lia.
  Qed.
End panic.

(** Comparing 4 panics. *)
Definition eq4 (x y : Z) : option bool := if (x =? 4)%Z then None else Some (x =? y)%Z.
Definition twice_run : list (v_op Z) := [ONew None None; OCall 0 (VPush [1; 1; 2; 2; 3; 3; 4]%Z)].
Definition seq_of_outcome (o : option (outcome (T := Z))) : option (bool * list Z) :=
  match o with Some (Returned w) => Some (true, vseq w 0) | Some (Panicked w) => Some (false, vseq w 0) | None => None end.

Example C199_example : exists st, v_reached 0%Z (fun _ _ n => 2 * n) (Some Z.eqb) isort isort st /\ 0 < w_vn (fst st) /\
  vseq (fst st) 0 = [1; 1; 2; 2; 3; 3; 4]%Z /\
  seq_of_outcome (p_CompactFunc 0%Z eq4 false 0 (fst st)) = Some (false, [1; 2; 3; 2; 3; 3; 4]%Z) /\
  seq_of_outcome (p_CompactFunc 0%Z eq4 true 0 (fst st)) = Some (false, [1; 2; 3; 2; 3; 3; 4]%Z).
Proof. apply (run_reached _ _ _ _ _ twice_run). vm_compute. repeat split; try reflexivity; lia. Qed.
Lemma eq4_panics_at : panics_at eq4 [1; 1; 2; 2; 3; 3; 4]%Z 6.
Proof.
  split; [done|]. split; [by exists 4%Z, 3%Z|]. intros m x y Hm Hx _. unfold eq4. destruct (Z.eqb_spec x 4) as [->|]; [|done].
  do 6 (destruct m as [|m]; [try lia; try discriminate Hx|]). all: lia.
Qed.

(** A CompactFunc that panicked cannot be repeated: even if eq is equality and does not panic any more, the
    vector is not what a single CompactFunc makes of it. *)
Theorem C200_repeat_refuted :
  ~ (forall (eq : Z -> Z -> option bool) go123 st v p w1,
      v_reached 0%Z (fun _ _ n => 2 * n) (Some Z.eqb) isort isort st -> v < w_vn (fst st) ->
      (forall x y b, eq x y = Some b -> b = (x =? y)%Z) ->
      panics_at eq (vseq (fst st) v) p -> p_CompactFunc 0%Z eq go123 v (fst st) = Some (Panicked w1) ->
      forall w2, CompactFunc 0%Z v (pure_cmp Z.eqb) w1 = Ok (tt, w2) -> vseq w2 v = compacted Z.eqb (vseq (fst st) v)).
Proof.
  intros H.
  destruct (run_reached 0%Z (fun _ _ n => 2 * n) (Some Z.eqb) isort isort twice_run (fun st => 0 < w_vn (fst st) /\
    vseq (fst st) 0 = [1; 1; 2; 2; 3; 3; 4]%Z /\
    match p_CompactFunc 0%Z eq4 true 0 (fst st) with
    | Some (Panicked w1) => match CompactFunc 0%Z 0 (pure_cmp Z.eqb) w1 with Ok (_, w2) => vseq w2 0 = [1; 2; 3; 2; 3; 4]%Z | _ => False end
    | _ => False
    end)) as (st&Hr&Hv&Hl&Hc).
  { vm_compute. split; [lia|]. split; reflexivity. }
  destruct (p_CompactFunc 0%Z eq4 true 0 (fst st)) as [[w1|w1]|] eqn:E1; [done| |done].
  destruct (CompactFunc 0%Z 0 (pure_cmp Z.eqb) w1) as [[[] w2]| |] eqn:E2; [|done..].
  specialize (H eq4 true st 0 6 w1 Hr Hv). rewrite Hl in H. specialize (fun a => H a eq4_panics_at E1 w2 E2).
  rewrite Hc in H. discriminate H. intros x y b. unfold eq4. destruct (x =? 4)%Z; [done|]. by intros [= <-].
Qed.

Print Assumptions C199_half_compacted. Print Assumptions C199_returns. Print Assumptions C199_elements.
Print Assumptions C200_repeat_refuted.
