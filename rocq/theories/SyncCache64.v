From Coq Require Import ZifyBool ZifyNat.
From Verif Require Import Base Int64 RwMapModel SyncCacheModel SyncCache64Spec.

Section proofs.
Context {K : Type} `{Countable K} {V : Type}.
Context (deref : nat -> nat) (veq : V -> V -> option bool) (has_cb : bool).
Local Notation cl_loc := (cl_loc veq has_cb).
Local Notation cl_loc64 := (cl_loc64 veq has_cb).
Local Notation cl_map := (cl_map (V := V) deref has_cb).
Local Notation wstep := (wstep deref veq has_cb).
Local Notation wrun := (wrun deref veq has_cb).

(** The most an addition adds. *)
Definition q63 : Z := (2^63 / 1000000)%Z.
(** After k additions. *)
Definition bounded (k : nat) (s : cstate K V) : Prop :=
  (forall e v x, c_ent s !! e = Some (v, x) -> (- (2^62 + Z.of_nat k * q63) <= x <= 2^62 + Z.of_nat k * q63)%Z) /\
  forall t c n p, c_fr s !! t = Some (mk_frame c n p) -> call_ok c.
Lemma bounded_init : bounded 0 c_init.
Proof. split; intros *; cbn; by rewrite lookup_empty. Qed.
Lemma bounded_mono k k' s : k <= k' -> bounded k s -> bounded k' s.
Proof.
  intros Hk [H1 H2]. split; [|done]. intros e v x Hx. specialize (H1 e v x Hx). assert (0 <= q63)%Z by (unfold q63; lia). nia.
Qed.
Lemma bounded_frame k s t c n p : bounded k s -> call_ok c -> bounded k (set_frame t c n p s).
Proof.
  intros [H1 H2] Hc. split; [done|]. cbn. intros u c' n' p'. destruct (decide (u = t)) as [->|].
  - rewrite lookup_insert. by intros [= -> -> ->].
  - rewrite lookup_insert_ne by done. apply H2.
Qed.
Lemma bounded_ent k s e v x new : bounded k s -> (- (2^62 + Z.of_nat k * q63) <= x <= 2^62 + Z.of_nat k * q63)%Z ->
  bounded k (mk_cstate (<[e := (v, x)]> (c_ent s)) new (c_fr s)).
Proof.
  intros [H1 H2] Hx. split; [|done]. cbn. intros e' v' x'. destruct (decide (e' = e)) as [->|].
  - rewrite lookup_insert. by intros [= -> ->].
  - rewrite lookup_insert_ne by done. apply H1.
Qed.
Lemma ms_bound n d : (0 <= n < 2^63)%Z -> is_int64 d -> (- 2^62 <= ms (n + d) <= 2^62)%Z.
Proof.
  intros Hn Hd. unfold is_int64 in Hd. unfold ms. split.
  - transitivity ((- 2^63) / 1000000)%Z; [vm_compute; congruence|]. apply Z.div_le_mono; lia.
  - transitivity ((2^64) / 1000000)%Z; [apply Z.div_le_mono; lia|vm_compute; congruence].
Qed.
Lemma ms64_id n : (- 2^62 <= ms n <= 2^62)%Z -> ms64 n = ms n.
Proof. intros Hn. apply wrap64_id. unfold is_int64. lia. Qed.
Lemma quot_bound d : is_int64 d -> (- q63 <= Z.quot d 1000000 <= q63)%Z.
Proof. unfold is_int64, q63. intros Hd. lia. Qed.
Lemma bounded_fr k s fr : (forall t c n p, fr !! t = Some (mk_frame c n p) -> call_ok c) ->
  bounded k s -> bounded k (mk_cstate (c_ent s) (c_new s) fr).
Proof. intros Hf [H1 H2]. by split. Qed.

Lemma loc_bounded k s a s' ev : bounded k s -> mild (XLoc a) -> cl_loc s a = Some (s', ev) ->
  bounded (k + if is_add (XLoc a) then 1 else 0) s'.
Proof.
  intros Hb Hm E. pose proof Hb as [H1 H2]. destruct a as [t c|t l|t ke e|e at_|e d]; cbn [is_add].
  - rewrite Nat.add_0_r. cbn in E. destruct (c_fr s !! t) eqn:Ef; [done|]. injection E as <- <-. by apply bounded_frame.
  - rewrite Nat.add_0_r. cbn in E. destruct (c_fr s !! t) as [[c n p]|] eqn:Ef; [|done]. pose proof (H2 _ _ _ _ Ef) as Hc.
    destruct p, l; try done;
      try (injection E as <- <-; by apply bounded_frame);
      try (destruct (c_ent s !! _) as [[v x']|]; [|done]; injection E as <- <-; by apply bounded_frame).
    + assert (Hput : forall v d, is_int64 d -> bounded k (mk_cstate (<[c_new s := (v, ms (now + d))]> (c_ent s)) (S (c_new s)) (<[t := mk_frame c n (Q_put (c_new s))]> (c_fr s)))).
      { intros v d Hd. refine (bounded_fr k (mk_cstate (<[c_new s := (v, ms (now + d))]> (c_ent s)) (S (c_new s)) (c_fr s)) _ _ _).
        - intros u c' n' p'. destruct (decide (u = t)) as [->|]; [rewrite lookup_insert; by intros [= <- <- <-]|rewrite lookup_insert_ne by done; apply H2].
        - apply bounded_ent; [done|]. pose proof (ms_bound now d Hm Hd). assert (0 <= q63)%Z by (unfold q63; lia). nia. }
      destruct c; try done; injection E as <- <-; by apply Hput.
    + injection E as <- <-. apply bounded_fr; [|done]. intros u c' n' p'. destruct (decide (u = t)) as [->|]; [by rewrite lookup_delete|rewrite lookup_delete_ne by done; apply H2].
  - rewrite Nat.add_0_r. cbn in E. destruct (c_fr s !! t) as [[c n p]|] eqn:Ef; [|done]. destruct p; try done.
    destruct (ranging has_cb c); [|done]. injection E as <- <-. apply bounded_frame; [done|by eapply H2].
  - rewrite Nat.add_0_r. cbn in E. destruct (c_ent s !! e) as [[v x]|] eqn:Ee; [|done]. injection E as <- <-.
    apply bounded_ent; [done|]. cbn in Hm. assert (0 <= q63)%Z by (unfold q63; lia). nia.
  - cbn in E. destruct (c_ent s !! e) as [[v x]|] eqn:Ee; [|done]. injection E as <- <-.
    apply bounded_ent; [eapply bounded_mono; [|done]; lia|]. pose proof (H1 _ _ _ Ee). pose proof (quot_bound d Hm). lia.
Qed.
Lemma map_bounded k s ev s' : bounded k s -> cl_map s ev = Some s' -> bounded k s'.
Proof.
  intros Hb E. pose proof Hb as [H1 H2]. destruct ev as [u mc|u r|u ke e b]; cbn in E;
    destruct (c_fr s !! Nat.div2 u) as [[c n p]|] eqn:Ef; try done; pose proof (H2 _ _ _ _ Ef) as Hc.
  - destruct (_ && _); [|done]. injection E as <-. by apply bounded_frame.
  - destruct (bool_decide _); [|done]. destruct (after_ret _ _ _ _); [|done]. injection E as <-. by apply bounded_frame.
  - destruct p; try done. destruct (bool_decide _); [|done]. injection E as <-. by apply bounded_frame.
Qed.
Lemma step_bounded k w x w' ev : bounded k (w_cl w) -> mild x -> wstep w x = Some (w', ev) ->
  bounded (k + if is_add x then 1 else 0) (w_cl w').
Proof.
  intros Hb Hm E. destruct x as [a|t|a]; cbn [SyncCacheModel.wstep] in E.
  - assert (exists s, cl_loc (w_cl w) a = Some (s, ev) /\ w_cl w' = s) as (s&E1&->).
    { destruct a; try done; destruct (cl_loc (w_cl w) _) as [[s ev1]|]; try done; injection E as <- <-; eauto. }
    by eapply loc_bounded.
  - rewrite Nat.add_0_r. destruct (c_thr (w_map w) !! tid t false) as [[c0 []]|]; try done.
    destruct (cl_loc (w_cl w) (KBeg t _ _)) as [[s ev1]|] eqn:E1; [|done]. injection E as <- <-.
    pose proof (loc_bounded _ _ (KBeg _ _ _) _ _ Hb I E1) as Hb'. by rewrite Nat.add_0_r in Hb'.
  - rewrite Nat.add_0_r. destruct (act deref 0 peq (w_map w) a) as [[cf [|e evs]]|]; [| |done].
    + by injection E as <- <-.
    + destruct (cl_map (w_cl w) e) as [s|] eqn:E1; [|done]. injection E as <- <-. by eapply map_bounded.
Qed.
Lemma step_64 k w x : bounded k (w_cl w) -> mild x -> (Z.of_nat (k + if is_add x then 1 else 0) <= 500000)%Z -> wstep64 deref veq has_cb w x = wstep w x.
Proof.
  intros [H1 H2] Hm Hk. destruct x as [a|t|a]; [|done|done]. cbn [wstep64 SyncCacheModel.wstep].
  assert (cl_loc64 (w_cl w) a = cl_loc (w_cl w) a) as ->; [|done].
  destruct a as [t c|t l|t ke e|e at_|e d]; [done| |done| |].
  - destruct l as [|n|b]; [done| |done]. cbn. destruct (c_fr (w_cl w) !! t) as [[c now p]|] eqn:Ef; [|done].
    pose proof (H2 _ _ _ _ Ef) as Hc. cbn in Hm.
    assert (ms64 n = ms n) as Hn by (apply ms64_id; rewrite <- (Z.add_0_r n); apply ms_bound; [done|done]).
    destruct p; try done; rewrite ?Hn; try done.
    destruct c; try done; cbn in Hc; rewrite (ms64_id (n + d)) by (by apply ms_bound); done.
  - cbn. cbn in Hm. rewrite ms64_id by done. done.
  - cbn. destruct (c_ent (w_cl w) !! e) as [[v x]|] eqn:Ee; [|done]. rewrite wrap64_id; [done|].
    pose proof (H1 _ _ _ Ee) as Hx. pose proof (quot_bound d Hm) as Hq. cbn [is_add] in Hk. unfold is_int64.
    assert (q63 = 9223372036854)%Z as Eq by (vm_compute; reflexivity). rewrite Eq in *. lia.
Qed.
Lemma run_64 xs : forall k w, bounded k (w_cl w) -> Forall mild xs -> (Z.of_nat (k + adds xs) <= 500000)%Z -> wrun64 deref veq has_cb w xs = wrun w xs.
Proof.
  induction xs as [|x xs IH]; intros k w Hb Hm Hk; [done|]. apply Forall_cons in Hm as [Hm Hm']. cbn [wrun64 SyncCacheModel.wrun].
  assert (Ha : adds (x :: xs) = (if is_add x then 1 else 0) + adds xs) by (unfold adds; cbn; by destruct (is_add x)).
  rewrite (step_64 k) by (done || lia). destruct (wstep w x) as [[w1 ev]|] eqn:E; [|done].
  rewrite (IH _ w1 (step_bounded _ _ _ _ _ Hb Hm E) Hm'); [done|]. lia.
Qed.
End proofs.
