(** rwmap: how far the counter can be off, in all executions. *)
From Coq Require Import ZifyBool ZifyNat.
From Verif Require Import Base RwMapModel RwMapSpec RwMapInv RwMapFrame RwMapMoves RwMapMoves2 RwMapStep RwMapStep2 RwMapStep3 RwMapLin RwMapLen RwMapLenGenSpec.

Section gen.
Context {K : Type} `{Countable K} {V : Type}.
Context (deref : nat -> V) (zero : V) (veq : V -> V -> option bool).
Local Notation call := (call K V).
Local Notation result := (result V).
Local Notation pc := (pc K V).
Local Notation shared := (shared K).
Local Notation core := (core deref veq).
Local Notation good := (good deref veq).
Local Notation slot_val := (slot_val deref).
Local Notation pcinv := (pcinv deref veq).
Local Notation event := (event K V).
Local Notation config := (config K V).
Local Notation run := (run deref zero veq).
Local Notation act := (act deref zero veq).
Local Notation step := (step deref zero veq).
Local Notation contents := (contents deref).

Local Notation tot_insert := (tot_insert deref zero veq).
Local Notation tot_delete := (tot_delete deref zero veq).
Local Notation tot_update := (tot_update deref zero veq).
Local Notation tot_changing := (tot_changing deref zero veq).
Local Notation chg_delta := (chg_delta deref zero veq).

Implicit Types (s : shared) (thr : gmap nat (call * pc)) (c : call) (p : pc).

(** ** Entries with a value *)
Definition vz (x : slot) : Z := match x with SPtr _ => 1 | _ => 0 end.

(** The number of entries from [lo] on, below [n], that have a value. *)
Fixpoint live (f : nat -> slot) (lo n : nat) : Z :=
  match n with
  | 0 => 0
  | S i => live f lo i + (if decide (lo <= i) then vz (f i) else 0)
  end.

Lemma live_set f lo n e x :
  e < n -> live (<[e := x]> f) lo n = (live f lo n + (if decide (lo <= e)%nat then vz x - vz (f e) else 0))%Z.
Proof.
  induction n as [|n IH]; intros He; [lia|]. cbn.
  destruct (decide (e = n)) as [->|Hne].
  - rewrite fn_lookup_insert.
    assert (Hsame : forall j, j <= n -> live (<[n := x]> f) lo j = live f lo j).
    { induction j as [|j IHj]; intros Hj; [done|]. cbn. rewrite IHj by lia.
      by rewrite fn_lookup_insert_ne by lia. }
    rewrite Hsame by lia. case_decide; lia.
  - rewrite IH by lia. rewrite fn_lookup_insert_ne by lia. lia.
Qed.

Lemma live_none f lo n : n <= lo -> live f lo n = 0%Z.
Proof.
  induction n as [|n IH]; intros Hn; [done|]. cbn. rewrite IH by lia. rewrite decide_False by lia. done.
Qed.

Lemma live_new f lo n x :
  lo <= n -> live (<[n := x]> f) lo (S n) = (live f lo n + vz x)%Z.
Proof.
  intros Hn. cbn. rewrite fn_lookup_insert, decide_True by done.
  assert (Hsame : forall j, j <= n -> live (<[n := x]> f) lo j = live f lo j).
  { induction j as [|j IHj]; intros Hj; [done|]. cbn. rewrite IHj by lia.
    by rewrite fn_lookup_insert_ne by lia. }
  by rewrite Hsame.
Qed.

Definition vlist (f : nat -> slot) (lo n : nat) : list nat :=
  filter (fun e => lo <= e /\ vz (f e) = 1%Z) (seq 0 n).

Lemma live_list f lo n : live f lo n = Z.of_nat (length (vlist f lo n)).
Proof.
  unfold vlist. induction n as [|n IH]; [done|]. rewrite seq_S, filter_app, app_length. cbn [live plus].
  rewrite IH, filter_cons, filter_nil. destruct (f n) eqn:En; cbn [vz]; repeat case_decide; cbn [length]; try lia; tauto.
Qed.

(** ** One step *)
Definition inm (s : shared) (e : nat) : Prop :=
  exists k, s_rd s !! k = Some e \/ dirty_map s !! k = Some e.
Definition em (s : shared) (e : nat) : Prop := exists k, emap s !! k = Some e.

Definition owed (cp : call * pc) : Z :=
  match cp.2 with
  | P_un r | P_miss r => delta cp.1 r
  | P_len _ d => d
  | _ => 0
  end.
Definition pre (p : pc) : bool :=
  match p with P_un _ | P_miss _ | P_len _ _ | X_ret _ | P_une None => false | _ => true end.
Definition lenok2 (c : call) (p : pc) : Prop :=
  match p with P_len r d => d = delta c r | _ => True end.

Definition score (lo : nat) c p s : Z := (s_len s + owed (c, p) - live (s_ent s) lo (s_next s))%Z.

Record keeps (lo : nat) c p s p' s' : Prop := mk_keeps {
  k_next : s_next s <= s_next s';
  k_maps : forall e, inm s' e -> inm s e \/ s_next s <= e;
  k_hold : forall e, holds p' e -> holds p e \/ inm s e;
  k_pre : pre p = false -> pre p' = false;
  k_ok : lenok2 c p';
  k_len : score lo c p' s' = score lo c p s \/
    (changing c = true /\ pre p = true /\ pre p' = false /\ (exists e, holds p e /\ e < lo) /\
     (Z.abs (score lo c p' s' - score lo c p s) <= 1)%Z);
  k_em : p <> P_clr -> forall e, em s e ->
    em s' e \/ s_ent s' e = SExp \/
    (deleting c /\ p = P_dirty /\ holds p' e /\ forall k, s_rd s !! k <> Some e);
  k_val : forall e, e < s_next s' -> is_Some (slot_val (s_ent s' e)) ->
    (e < s_next s /\ is_Some (slot_val (s_ent s e))) \/ em s' e \/
    (writer c /\ holds p e /\ s_ent s e <> SExp);
  k_exp : forall e, s_ent s e = SExp -> s_ent s' e = SExp \/ em s' e;
  k_del : forall e, deleting c -> holds p e -> holds p' e \/ slot_val (s_ent s' e) = None;
  k_hw : forall e, writer c -> holds p' e -> holds p e \/ em s' e }.

(** Nothing changes but the lock. *)
Definition same (s s' : shared) : Prop :=
  s_rd s' = s_rd s /\ s_am s' = s_am s /\ s_dirty s' = s_dirty s /\ s_ent s' = s_ent s /\
  s_next s' = s_next s /\ s_len s' = s_len s.

Lemma same_refl s : same s s. Proof. by repeat split. Qed.
Lemma same_lock s l : same s (set_lock l s). Proof. by repeat split. Qed.

Lemma same_maps s s' : same s s' -> dirty_map s' = dirty_map s /\ emap s' = emap s.
Proof. intros (E1 & E2 & E3 & _). unfold emap, dirty_map. by rewrite E1, E2, E3. Qed.

Lemma keeps_same lo c p s p' s' :
  same s s' -> owed (c, p') = owed (c, p) -> lenok2 c p' ->
  (forall e, holds p' e -> holds p e \/ (inm s e /\ (writer c -> em s e))) ->
  (pre p = false -> pre p' = false) ->
  (forall e, deleting c -> holds p e -> holds p' e \/ slot_val (s_ent s e) = None) ->
  keeps lo c p s p' s'.
Proof.
  intros Hs Ho Hl Hh Hp Hd. pose proof (same_maps _ _ Hs) as [Ed Ee].
  destruct Hs as (E1 & E2 & E3 & E4 & E5 & E6).
  split; unfold em, inm, score; rewrite ?E1, ?E4, ?E5, ?E6, ?Ed, ?Ee, ?Ho; auto.
  - intros e He. destruct (Hh e He) as [?|[? _]]; auto.
  - intros e Hw He. destruct (Hh e He) as [?|[_ Hx]]; auto. right. unfold em in Hx. auto.
Qed.

Lemma owed_finish c r : owed (c, finish c r) = delta c r.
Proof. unfold finish, owed. case_decide; done. Qed.
Lemma owed_after c m r : owed (c, after c m r) = delta c r.
Proof. destruct m; [apply owed_finish|done..]. Qed.
Lemma owed_panic c m : owed (c, after_panic m) = 0%Z.
Proof. destruct m; [done|by destruct c..]. Qed.
Lemma lenok2_finish c r : lenok2 c (finish c r).
Proof. unfold finish. case_decide; done. Qed.
Lemma lenok2_after c m r : lenok2 c (after c m r).
Proof. destruct m; [apply lenok2_finish|done..]. Qed.
Lemma lenok2_panic c m : lenok2 c (after_panic m).
Proof. by destruct m. Qed.
Lemma pre_finish c r : pre (finish c r) = false.
Proof. unfold finish. by case_decide. Qed.
Lemma pre_after c m r : pre (after c m r) = false.
Proof. destruct m; [apply pre_finish|done..]. Qed.
Lemma holds_finish c r e : ~ holds (finish c r) e.
Proof. unfold finish. case_decide; by intros []. Qed.
Lemma holds_after c m r e : ~ holds (after c m r) e.
Proof. destruct m; [apply holds_finish|by intros []..]. Qed.
Lemma holds_panic m e : ~ holds (after_panic (K := K) (V := V) m) e.
Proof. destruct m; by intros []. Qed.

(** Only the two maps change. *)
Lemma keeps_maps lo c p s p' s' :
  s_ent s' = s_ent s -> s_next s' = s_next s -> s_len s' = s_len s ->
  (forall e, inm s' e -> inm s e) -> owed (c, p') = owed (c, p) -> lenok2 c p' ->
  (forall e, holds p' e -> holds p e \/ (inm s e /\ (writer c -> em s' e))) ->
  (pre p = false -> pre p' = false) ->
  (forall e, deleting c -> holds p e -> holds p' e \/ slot_val (s_ent s e) = None) ->
  (p <> P_clr -> forall e, em s e ->
    em s' e \/ s_ent s' e = SExp \/
    (deleting c /\ p = P_dirty /\ holds p' e /\ forall k, s_rd s !! k <> Some e)) ->
  keeps lo c p s p' s'.
Proof.
  intros E4 E5 E6 Hm Ho Hl Hh Hp Hd He. split; [lia| | |done|done| | | | | |].
  - intros e Hi. left. auto.
  - intros e Hi. destruct (Hh e Hi) as [?|[? _]]; auto.
  - left. unfold score. by rewrite E4, E5, E6, Ho.
  - done.
  - intros e. rewrite E5, E4. auto.
  - intros e. rewrite E4. auto.
  - intros e. rewrite E4. auto.
  - intros e Hw Hi. destruct (Hh e Hi) as [?|[_ Hx]]; auto.
Qed.

Lemma dirty_inm s k e : dirty_map s !! k = Some e -> inm s e.
Proof. intros Hk. exists k. auto. Qed.
Lemma rd_inm s k e : s_rd s !! k = Some e -> inm s e.
Proof. intros Hk. exists k. auto. Qed.
Lemma rd_em s k e : s_rd s !! k = Some e -> em s e.
Proof.
  intros Hk. exists k. unfold emap. destruct (s_am s); [|done]. by apply lookup_union_Some_l.
Qed.

Lemma miss_fields s :
  s_ent (missLocked s) = s_ent s /\ s_next (missLocked s) = s_next s /\ s_len (missLocked s) = s_len s.
Proof. unfold missLocked, promote. by case_decide. Qed.
Lemma promote_inm s e : inm (promote s) e -> inm s e.
Proof. intros (k & [Hk|Hk]); exists k; cbn in Hk; [by right|]. by rewrite lookup_empty in Hk. Qed.
Lemma miss_inm s e : inm (missLocked s) e -> inm s e.
Proof. unfold missLocked. case_decide; [done|]. apply promote_inm. Qed.

Lemma promote_em s kof e :
  sinv Normal s kof -> s_am s = true -> em s e -> em (promote s) e \/ s_ent s e = SExp.
Proof.
  intros (_ & _ & Hs) Ha (k & Hk). rewrite Ha in Hs. destruct Hs as (d & Ed & Hrd & _).
  unfold emap in Hk. rewrite Ha in Hk. unfold dirty_map in Hk. rewrite Ed in Hk.
  apply lookup_union_Some_raw in Hk as [Hk|[_ Hk]].
  - destruct (Hrd _ _ Hk) as [[? _]|[_ Hd]]; [by right|left].
    exists k. unfold emap, promote. cbn. unfold dirty_map. by rewrite Ed.
  - left. exists k. unfold emap, promote. cbn. unfold dirty_map. by rewrite Ed.
Qed.
Lemma miss_em s kof e :
  sinv Normal s kof -> s_am s = true -> em s e -> em (missLocked s) e \/ s_ent s e = SExp.
Proof.
  intros Hs Ha He. unfold missLocked. case_decide; [by left|]. by eapply promote_em.
Qed.

Lemma cas_score c x : cas_ok deref veq c x -> (vz (cas_new c) - vz x = delta c (cas_result deref c x))%Z.
Proof.
  destruct c; cbn; try done; intros Hx.
  - destruct x; done.
  - destruct x; done.
  - by subst x.
  - by destruct Hx as [q ->].
  - by destruct Hx as [q ->].
  - by destruct Hx as [q [-> _]].
  - by destruct Hx as [q [-> _]].
Qed.

Lemma em_dec s e : em s e \/ ~ em s e.
Proof.
  destruct (decide (e ∈ (map_to_list (emap s)).*2)) as [Hi|Hi].
  - left. apply elem_of_list_fmap in Hi as ([k e'] & -> & Hi). exists k. by apply elem_of_map_to_list.
  - right. intros (k & Hk). apply Hi. apply elem_of_list_fmap. exists (k, e). split; [done|]. by apply elem_of_map_to_list.
Qed.

Lemma emap_set_ent s e x : emap (set_ent e x s) = emap s.
Proof. done. Qed.

(** An entry that is in the map is set, to a value or to nil. *)
Lemma keeps_ent lo c p s p' e x :
  e < s_next s -> x <> SExp ->
  s_ent s e <> SExp -> lenok2 c p' -> (forall e', ~ holds p' e') ->
  (em s e \/ holds p e) -> pre p = true -> pre p' = false ->
  (vz x = 1%Z -> em s e \/ writer c) -> (forall e', holds p e' -> e' = e) ->
  (owed (c, p') - owed (c, p) = vz x - vz (s_ent s e))%Z ->
  (lo <= e \/ (holds p e /\ (changing c = true \/ owed (c, p') = owed (c, p)))) ->
  (deleting c -> x = SNil) ->
  keeps lo c p s p' (set_ent e x s).
Proof.
  intros He Hx Hse Hok Hh Hem Hp Hp' Hv Hu Ho Hlo Hdel. split; cbn [s_next s_ent s_len set_ent].
  - lia.
  - intros e' Hi. by left.
  - intros e' Hi. by destruct (Hh e').
  - congruence.
  - done.
  - unfold score. cbn [s_next s_ent s_len set_ent]. rewrite live_set by done.
    assert (0 <= vz x <= 1)%Z by (destruct x; cbn; lia).
    assert (0 <= vz (s_ent s e) <= 1)%Z by (destruct (s_ent s e); cbn; lia).
    destruct (decide (lo <= e)) as [Hle|Hle]; [left; lia|].
    destruct Hlo as [Hlo|[Hhe [Hc|Hc]]]; [lia| |left; lia].
    right. split; [done|]. split; [done|]. split; [done|]. split; [exists e; split; [done|lia]|]. lia.
  - intros _ e' Hi. by left.
  - intros e' He' Hsv. destruct (decide (e' = e)) as [->|Hne].
    + right. rewrite fn_lookup_insert in Hsv. destruct Hem as [Hem|Hem]; [by left|].
      destruct Hv as [Hv|Hv]; [destruct x; cbn in *; try done; by destruct Hsv|by left|]. by right.
    + left. by rewrite fn_lookup_insert_ne in Hsv.
  - intros e' Hi. destruct (decide (e' = e)) as [->|Hne]; [done|left]. by rewrite fn_lookup_insert_ne.
  - intros e' Hd Hi. right. apply Hu in Hi as ->. rewrite fn_lookup_insert. by rewrite Hdel.
  - intros e' _ Hi. by destruct (Hh e').
Qed.

Lemma em_inm s e : em s e -> inm s e.
Proof.
  intros (k & Hk). unfold emap in Hk. destruct (s_am s); [|exists k; auto].
  apply lookup_union_Some_raw in Hk as [Hk|[_ Hk]]; exists k; auto.
Qed.

Lemma step_keeps lo kof t c p s lab p' s' ev :
  (forall e, inm s e -> lo <= e) -> lo <= s_next s ->
  (locked p = true -> sinv (phase_of p) s kof) -> pcinv c p s kof -> p <> P_clr2 ->
  step t c p s lab = Some (Some p', s', ev) -> keeps lo c p s p' s'.
Proof.
  intros Hlo Hln Hs Hpc Hcl Hstep.
  (* a step that only looks *)
  assert (Hgo : forall q s1, goto q s1 = Some (Some p', s', ev) -> same s s1 ->
     owed (c, q) = owed (c, p) -> lenok2 c q ->
     (forall e, holds q e -> holds p e \/ (inm s e /\ (writer c -> em s e))) ->
     (pre p = false -> pre q = false) ->
     (forall e, deleting c -> holds p e -> holds q e \/ slot_val (s_ent s e) = None) ->
     keeps lo c p s p' s').
  { intros q s1 [= <- <- <-] Hsm Ho Hok Hh Hp Hd. by apply keeps_same. }
  destruct p; try (destruct lab as [|kl|b]; [|discriminate Hstep|discriminate Hstep]); cbn [step] in Hstep; try done.
  - (* P_read *)
    assert (Hr : s' = s /\ owed (c, p') = 0%Z /\ lenok2 c p' /\
      (forall e, holds p' e -> exists k, s_rd s !! k = Some e)).
    { unfold step_read, goto in Hstep. destruct c; try done; repeat (case_match || case_decide); simplify_eq;
        (split; [done|]; split; [done|]; split; [done|]; cbn; intros e' He'; first [done|subst; eauto]). }
    destruct Hr as (-> & Ho & Hok & Hh). apply keeps_same; [apply same_refl|done|done| |done|done].
    intros e He. right. destruct (Hh e He) as [k Hk]. split; [by eapply rd_inm|]. intros _. by eapply rd_em.
  - (* P_lock *)
    destruct (s_lock s); [done|]. eapply Hgo; [exact Hstep|apply same_lock|done..].
  - (* P_read2 *)
    assert (Hr : s' = s /\ owed (c, p') = 0%Z /\ lenok2 c p' /\
      (forall e, holds p' e -> exists k, s_rd s !! k = Some e)).
    { unfold step_read2, goto in Hstep. destruct c; try done; repeat (case_match || case_decide); simplify_eq;
        (split; [done|]; split; [done|]; split; [done|]; cbn; intros e' He'; first [done|subst; eauto]). }
    destruct Hr as (-> & Ho & Hok & Hh). apply keeps_same; [apply same_refl|done|done| |done|done].
    intros e He. right. destruct (Hh e He) as [k Hk]. split; [by eapply rd_inm|]. intros _. by eapply rd_em.
  - (* P_dirty *)
    destruct Hpc as (k & Ek & Ekr & Ham). specialize (Hs eq_refl). cbn in Hs.
    assert (Hfind : finding c -> forall e, em s e -> em (missLocked s) e \/ s_ent s e = SExp).
    { intros Hf e He. eapply miss_em; [done|by apply Ham|done]. }
    assert (Hadd : add_key s = Some (Some p', s', ev) -> keeps lo c P_dirty s p' s').
    { intros Ha. unfold add_key, goto in Ha. destruct (s_am s) eqn:Eam; [|destruct (s_dirty s) eqn:Ed]; injection Ha as <- <- <-.
      - by apply keeps_same; [apply same_refl|..].
      - by apply keeps_same; [apply same_refl|..].
      - apply keeps_maps; try done.
        + intros e (k' & [Hk'|Hk']); exists k'; [by left|]. cbn in Hk'. by rewrite lookup_empty in Hk'.
        + intros _ e (k' & Hk'). left. exists k'. revert Hk'. unfold emap. cbn. by rewrite Eam. }
    assert (Hdem : forall e, dirty_map s !! k = Some e -> em s e).
    { intros e He. exists k. unfold emap. destruct Hs as (_ & _ & Hs). destruct (s_am s) eqn:Eam.
      - apply lookup_union_Some_raw. by right.
      - destruct Hs as [[Ed|[Ed _]] _]; unfold dirty_map in He; rewrite Ed in He; by rewrite lookup_empty in He. }
    assert (Hdgo : forall q, (forall e, holds q e -> dirty_map s !! k = Some e) -> owed (c, q) = 0%Z -> lenok2 c q ->
       goto q s = Some (Some p', s', ev) -> keeps lo c P_dirty s p' s').
    { intros q Hh Ho Hok Hg. eapply Hgo; [exact Hg|apply same_refl|done|done| |done|done].
      intros e He. right. split; [by eapply dirty_inm, Hh|]. auto. }
    assert (Hune : forall e, holds (P_une (dirty_map s !! k) : pc) e -> dirty_map s !! k = Some e).
    { intros e He. cbn in He. destruct (dirty_map s !! k); [by subst|done]. }
    assert (Hou : owed (c, P_une (dirty_map s !! k)) = 0%Z /\ lenok2 c (P_une (dirty_map s !! k))) by done.
    destruct (miss_fields s) as (F1 & F2 & F3).
    destruct (miss_fields (set_dirty (delete k <$> s_dirty s) s)) as (G1 & G2 & G3).
    assert (Hload : ~ writer c -> finding c -> goto (P_une (dirty_map s !! k)) (missLocked s) = Some (Some p', s', ev) ->
       keeps lo c P_dirty s p' s').
    { intros Hw Hf [= <- <- <-]. apply keeps_maps; try done.
      - apply miss_inm.
      - intros e He. right. split; [by eapply dirty_inm, Hune|done].
      - intros _ e He. destruct (Hfind Hf e He) as [?|?]; [by left|right; left]. by rewrite F1. }
    assert (Hdele : ~ writer c -> deleting c ->
       goto (P_une (dirty_map s !! k)) (missLocked (set_dirty (delete k <$> s_dirty s) s)) = Some (Some p', s', ev) ->
       keeps lo c P_dirty s p' s').
    { intros Hw Hd [= <- <- <-].
      assert (Ea : s_am s = true) by (apply Ham; by destruct c).
      assert (Edm : dirty_map (set_dirty (delete k <$> s_dirty s) s) = delete k (dirty_map s)).
      { unfold dirty_map. cbn. destruct (s_dirty s); [done|]. cbn. by rewrite delete_empty. }
      apply keeps_maps; try done.
      - intros e He. apply miss_inm in He as (k' & [Hk'|Hk']); exists k'; [by left|right].
        rewrite Edm in Hk'. by apply lookup_delete_Some in Hk' as [_ ?].
      - intros e He. right. split; [by eapply dirty_inm, Hune|done].
      - intros _ e (k' & Hk'). destruct Hs as (Hm1 & Hm2 & Hs). rewrite Ea in Hs. destruct Hs as (d & Ed & Hrd & Hdd).
        unfold emap in Hk'. rewrite Ea in Hk'.
        assert (Edd : dirty_map s = d) by (unfold dirty_map; by rewrite Ed).
        assert (Hin : forall kk, kk <> k -> d !! kk = Some e -> em (missLocked (set_dirty (delete k <$> s_dirty s) s)) e).
        { intros kk Hne Hkk. exists kk. unfold missLocked. case_decide; unfold emap; cbn.
          - rewrite Ea. destruct (s_rd s !! kk) as [e1|] eqn:E1.
            + rewrite (lookup_union_Some_l _ _ _ _ E1). destruct (Hrd _ _ E1) as [[_ ?]|[_ ?]]; congruence.
            + rewrite lookup_union_r by done. unfold dirty_map. cbn. rewrite Ed. cbn. by rewrite lookup_delete_ne.
          - unfold dirty_map. cbn. rewrite Ed. cbn. by rewrite lookup_delete_ne. }
        apply lookup_union_Some_raw in Hk' as [Hk'|[Hn Hk']].
        + assert (Hne : k' <> k) by congruence.
          destruct (Hrd _ _ Hk') as [[Hx _]|[_ Hx]]; [right; left; by rewrite G1|]. left. by eapply Hin.
        + rewrite Edd in Hk'. destruct (decide (k' = k)) as [->|Hne]; [|left; by eapply Hin].
          right. right. split; [done|]. split; [done|]. split; [cbn; rewrite Edd, Hk'; done|].
          intros k2 Hk2. destruct (Hm1 _ _ Hk2) as [E2 _]. rewrite <- Edd in Hk'. destruct (Hm2 _ _ Hk') as [E3 _]. congruence. }
    unfold step_dirty in Hstep. destruct c; try done; cbn in Ek; injection Ek as ->.
    + apply Hload; [by intros []|done|done].
    + destruct (dirty_map s !! k) eqn:Edk; [|by apply Hadd]. eapply Hdgo; [| | |exact Hstep]; [|done|done]. done.
    + destruct (dirty_map s !! k) eqn:Edk; [|by apply Hadd]. eapply Hdgo; [| | |exact Hstep]; [|done|done]. done.
    + destruct (dirty_map s !! k) eqn:Edk; [|by apply Hadd]. eapply Hdgo; [| | |exact Hstep]; [|done|done]. cbn. by intros e ->.
    + apply Hdele; [by intros []|done|done].
    + apply Hdele; [by intros []|done|done].
    + destruct (dirty_map s !! k) eqn:Edk; (eapply Hdgo; [| | |exact Hstep]; [|done|done]); [cbn; by intros e -> |done].
    + apply Hload; [by intros []|done|done].
  - (* P_unexp *)
    destruct Hpc as (Hst & Ek & Erd). specialize (Hs eq_refl). cbn in Hs. cbn in Hstep.
    set (q := match c with CLoadOrStore _ _ => _ | _ => _ end : pc) in Hstep.
    assert (Hq : owed (c, q) = 0%Z /\ lenok2 c q /\ (forall e', holds q e' -> e' = e) /\ pre q = true).
    { destruct c; try done; cbn; by split_and!. }
    destruct Hq as (Hq1 & Hq2 & Hq3 & Hq4).
    assert (Hplain : goto q s = Some (Some p', s', ev) -> keeps lo c (P_unexp e) s p' s').
    { intros Hg. eapply Hgo; [exact Hg|apply same_refl|done|done| |done|done].
      intros e' ->%Hq3. right. split; [by eapply rd_inm|]. intros _. by eapply rd_em. }
    destruct (s_ent s e) eqn:Ee; [by apply Hplain| |by apply Hplain].
    rewrite Ek in Hstep. destruct Hs as (Hm1 & Hm2 & Hs).
    destruct (s_am s) eqn:Eam; [|destruct Hs as [_ Hs]; by destruct (Hs _ _ Erd)].
    destruct Hs as (d & Ed & Hrd & Hdd). unfold dirty_store in Hstep. cbn in Hstep. rewrite Ed in Hstep.
    injection Hstep as <- <- <-.
    assert (Hem : forall e', em s e' -> em (set_dirty (Some (<[kof e := e]> d)) (set_ent e SNil s)) e').
    { intros e' (k' & Hk'). exists k'. unfold emap in Hk' |- *. cbn. rewrite Eam in Hk' |- *.
      unfold dirty_map in Hk' |- *. cbn. rewrite Ed in Hk'.
      apply lookup_union_Some_raw in Hk' as [Hk'|[Hn Hk']]; [by apply lookup_union_Some_l|].
      rewrite lookup_union_r by done. rewrite lookup_insert_ne by congruence. done. }
    assert (Hlt : e < s_next s) by (by eapply (Hm1 _ _ Erd)).
    split; cbn [s_next s_ent s_len set_ent set_dirty].
    + done.
    + intros e' (k' & Hk'). cbn in Hk'. unfold dirty_map in Hk'. cbn in Hk'. destruct Hk' as [Hk'|Hk']; [left; exists k'; by left|].
      apply lookup_insert_Some in Hk' as [[<- <-]|[_ Hk']]; [left; by eapply rd_inm|].
      left. exists k'. right. unfold dirty_map. by rewrite Ed.
    + intros e' ->%Hq3. right. by eapply rd_inm.
    + done.
    + done.
    + left. unfold score. cbn [s_next s_ent s_len set_ent set_dirty]. rewrite live_set by done. rewrite Ee, Hq1. cbn.
      case_decide; lia.
    + intros _ e' He'. left. auto.
    + intros e' He' Hv. left. split; [done|]. destruct (decide (e' = e)) as [->|Hne].
      * rewrite fn_lookup_insert in Hv. by destruct Hv.
      * by rewrite fn_lookup_insert_ne in Hv.
    + intros e' He'. destruct (decide (e' = e)) as [->|Hne].
      * right. apply Hem. by eapply rd_em.
      * left. by rewrite fn_lookup_insert_ne.
    + intros e' Hd. by destruct c.
    + intros e' _ ->%Hq3. right. apply Hem. by eapply rd_em.
  - (* P_swap *)
    destruct Hpc as (Hsw & Ek & Hlt & Hem & Hx).
    destruct (call_ptr c) as [q|] eqn:Eq; [|by destruct c].
    assert (Hg : goto (P_un (RVal (slot_val (s_ent s e)))) (set_ent e (SPtr q) s) = Some (Some p', s', ev)).
    { destruct (s_ent s e); done. }
    injection Hg as <- <- <-.
    assert (He : em s e) by (by exists (kof e)).
    apply keeps_ent; try done; [by intros e' []|by left|by left| | |].
    + cbn. destruct c; try done; destruct (s_ent s e); done.
    + left. by apply Hlo, em_inm.
    + intros Hd. by destruct c.
  - (* P_dl *)
    destruct lab as [|kl|b]; [case_decide; [|done]|destruct (todo !! kl) as [e|] eqn:El; [|done]|done];
      (eapply Hgo; [exact Hstep|apply same_refl|done..]).
  - (* P_dlx *)
    specialize (Hs eq_refl). cbn in Hs. destruct Hs as (Hm1 & Hm2 & Eam & d & Ed & Ht & _).
    destruct (Ht k e) as (Erd & _ & Edk); [apply lookup_insert|].
    destruct (s_ent s e) eqn:Ee; [by (eapply Hgo; [exact Hstep|apply same_refl|done..])|by (eapply Hgo; [exact Hstep|apply same_refl|done..])|].
    unfold dirty_store in Hstep. rewrite Ed in Hstep. injection Hstep as <- <- <-.
    apply keeps_maps; try done.
    + intros e' (k' & Hk'). cbn in Hk'. unfold dirty_map in Hk'. cbn in Hk'. destruct Hk' as [Hk'|Hk']; [exists k'; by left|].
      apply lookup_insert_Some in Hk' as [[<- <-]|[_ Hk']]; [by eapply rd_inm|]. exists k'. right. unfold dirty_map. by rewrite Ed.
    + intros _ e' (k' & Hk'). left. exists k'. revert Hk'. unfold emap. cbn. by rewrite Eam.
  - (* P_dlc *)
    specialize (Hs eq_refl). cbn in Hs. destruct Hs as (Hm1 & Hm2 & Eam & d & Ed & Ht & _).
    destruct (Ht k e) as (Erd & _ & Edk); [apply lookup_insert|].
    destruct (s_ent s e) eqn:Ee; [|by (eapply Hgo; [exact Hstep|apply same_refl|done..])|by (eapply Hgo; [exact Hstep|apply same_refl|done..])].
    injection Hstep as <- <- <-.
    assert (Hlt : e < s_next s) by (by eapply (Hm1 _ _ Erd)).
    split; cbn [s_next s_ent s_len set_ent]; try done.
    + intros e' Hi. by left.
    + left. unfold score. cbn [s_next s_ent s_len set_ent]. rewrite live_set by done. rewrite Ee. cbn. case_decide; lia.
    + intros _ e' He'. by left.
    + intros e' He' Hv. left. split; [done|]. destruct (decide (e' = e)) as [->|Hne].
      * rewrite fn_lookup_insert in Hv. by destruct Hv.
      * by rewrite fn_lookup_insert_ne in Hv.
    + intros e' He'. destruct (decide (e' = e)) as [->|Hne]; left; [by rewrite fn_lookup_insert|].
      by rewrite fn_lookup_insert_ne.
  - (* P_amend *)
    specialize (Hs eq_refl). cbn in Hs. destruct Hs as (Hm1 & Hm2 & Eam & _).
    injection Hstep as <- <- <-. apply keeps_maps; try done.
    intros _ e' (k' & Hk'). left. exists k'. revert Hk'. unfold emap. cbn. rewrite Eam.
    intros Hk'. by apply lookup_union_Some_l.
  - (* P_new *)
    destruct Hpc as (Hst & Eam & k & Ek & Erd & Edk). specialize (Hs eq_refl). cbn in Hs.
    rewrite Ek in Hstep. destruct (call_ptr c) as [q|] eqn:Eq; [|done].
    destruct Hs as (Hm1 & Hm2 & Hs). rewrite Eam in Hs. destruct Hs as (d & Ed & _).
    unfold dirty_store in Hstep. cbn in Hstep. rewrite Ed in Hstep. injection Hstep as <- <- <-.
    assert (Edd : dirty_map s = d) by (unfold dirty_map; by rewrite Ed). rewrite Edd in Edk.
    assert (Hem : forall k' e', k' = k /\ e' = s_next s \/ k' <> k /\ emap s !! k' = Some e' ->
      em (set_dirty (Some (<[k := s_next s]> d)) (new_entry q s)) e').
    { intros k' e' Hk'. exists k'. unfold emap. cbn. rewrite Eam. unfold dirty_map. cbn.
      destruct Hk' as [[-> ->]|[Hne Hk']].
      - rewrite lookup_union_r by done. apply lookup_insert.
      - unfold emap in Hk'. rewrite Eam, Edd in Hk'.
        apply lookup_union_Some_raw in Hk' as [Hk'|[Hn Hk']]; [by apply lookup_union_Some_l|].
        rewrite lookup_union_r by done. by rewrite lookup_insert_ne. }
    set (r := match c with CLoadOrStore _ _ => _ | _ => _ end).
    assert (Hdel : delta c r = 1%Z) by (subst r; destruct c; done).
    split; cbn [s_next s_ent s_len set_dirty new_entry]; try done.
    + lia.
    + intros e' (k' & Hk'). cbn in Hk'. unfold dirty_map in Hk'. cbn in Hk'. destruct Hk' as [Hk'|Hk']; [left; exists k'; by left|].
      apply lookup_insert_Some in Hk' as [[<- <-]|[_ Hk']]; [by right|].
      left. exists k'. right. by rewrite Edd.
    + left. unfold score. cbn [s_next s_ent s_len set_dirty new_entry]. rewrite live_new by done.
      unfold owed. cbn [fst snd vz]. rewrite Hdel. lia.
    + intros _ e' (k' & Hk'). left. apply (Hem k'). right. split; [|done]. intros ->.
      unfold emap in Hk'. rewrite Eam, Edd in Hk'. apply lookup_union_Some_raw in Hk' as [?|[_ ?]]; congruence.
    + intros e' He' Hv. destruct (decide (e' = s_next s)) as [->|Hne].
      * right. left. apply (Hem k). by left.
      * left. rewrite fn_lookup_insert_ne in Hv by done. split; [lia|done].
    + intros e' He'. destruct (decide (e' = s_next s)) as [->|Hne].
      * right. apply (Hem k). by left.
      * left. by rewrite fn_lookup_insert_ne.
  - (* P_miss *)
    destruct Hpc as [Eam Hnl]. specialize (Hs eq_refl). cbn in Hs. injection Hstep as <- <- <-.
    destruct (miss_fields s) as (F1 & F2 & F3). apply keeps_maps; try done; [apply miss_inm|].
    intros _ e He. destruct (miss_em _ _ _ Hs Eam He) as [?|?]; [by left|right; left]. by rewrite F1.
  - (* P_un *)
    eapply Hgo; [exact Hstep|apply same_lock|rewrite owed_finish; done|apply lenok2_finish| |intros _; apply pre_finish|done].
    intros e He. by apply holds_finish in He.
  - (* P_une *)
    destruct o as [e|], lab; try done; (eapply Hgo; [exact Hstep|apply same_lock|done|done| |done|]); try done.
    + intros e' He'. by left.
    + intros e' _ He'. by left.
  - (* P_prom *)
    destruct Hpc as [Hrc Eam]. specialize (Hs eq_refl). cbn in Hs. injection Hstep as <- <- <-.
    apply keeps_maps; try done; [apply promote_inm|].
    intros _ e He. destruct (promote_em _ _ _ Hs Eam He) as [?|?]; [by left|right; left]. done.
  - (* P_unr *)
    eapply Hgo; [exact Hstep|apply same_lock|done..].
  - (* P_clr *)
    injection Hstep as <- <- <-. apply keeps_maps; try done.
    intros e (k & [Hk|Hk]); exists k; [cbn in Hk; by rewrite lookup_empty in Hk|by right].
  - (* E_load *)
    destruct Hpc as (Ek & Hlt & Hmode).
    assert (Haft : forall r, delta c r = 0%Z -> (deleting c -> slot_val (s_ent s e) = None) ->
      goto (after c m r) s = Some (Some p', s', ev) -> keeps lo c (E_load e m) s p' s').
    { intros r Hr Hd Hg. eapply Hgo; [exact Hg|apply same_refl|by rewrite owed_after|apply lenok2_after| |done|].
      - intros e' He'. by apply holds_after in He'.
      - intros e' Hdel He'. cbn in He'. subst e'. right. auto. }
    assert (Hpan : ~ deleting c -> goto (after_panic m) s = Some (Some p', s', ev) -> keeps lo c (E_load e m) s p' s').
    { intros Hd Hg. eapply Hgo; [exact Hg|apply same_refl|by rewrite owed_panic|apply lenok2_panic| |done|].
      - intros e' He'. by apply holds_panic in He'.
      - intros e' Hdel. done. }
    assert (Hcas : forall x, goto (E_cas e x m) s = Some (Some p', s', ev) -> keeps lo c (E_load e m) s p' s').
    { intros x Hg. eapply Hgo; [exact Hg|apply same_refl|done|done| |done|].
      - intros e' He'. by left.
      - intros e' _ He'. by left. }
    assert (Hlock : ~ deleting c -> goto P_lock s = Some (Some p', s', ev) -> keeps lo c (E_load e m) s p' s').
    { intros Hd Hg. eapply Hgo; [exact Hg|apply same_refl|done|done|done|done|done]. }
    unfold step_load in Hstep. destruct c; try done.
    + by (eapply Haft; [| |exact Hstep]).
    + destruct (s_ent s e) eqn:Ee; [by eapply Hcas|apply Hlock; [by intros []|done]|by eapply Hcas].
    + destruct (s_ent s e) eqn:Ee; [by eapply Hcas|apply Hlock; [by intros []|done]|by eapply Hcas].
    + destruct (s_ent s e) eqn:Ee; [by eapply Hcas| |by (eapply Haft; [| |exact Hstep])].
      destruct m; [apply Hlock; [by intros []|done]| |]; cbn in Hmode; naive_solver.
    + destruct (s_ent s e) eqn:Ee; [by (eapply Haft; [| |exact Hstep])|by (eapply Haft; [| |exact Hstep])|by eapply Hcas].
    + destruct (s_ent s e) eqn:Ee; [by (eapply Haft; [| |exact Hstep])|by (eapply Haft; [| |exact Hstep])|by eapply Hcas].
    + destruct (s_ent s e) eqn:Ee; [by (eapply Haft; [| |exact Hstep])|by (eapply Haft; [| |exact Hstep])|].
      destruct (veq (deref _) old) as [[]|]; [by eapply Hcas|by (eapply Haft; [| |exact Hstep])|apply Hpan; [by intros []|done]].
    + destruct (s_ent s e) eqn:Ee; [by (eapply Haft; [| |exact Hstep])|by (eapply Haft; [| |exact Hstep])|].
      destruct (veq (deref _) old) as [[]|]; [by eapply Hcas|by (eapply Haft; [| |exact Hstep])|apply Hpan; [by intros []|done]].
  - (* E_cas *)
    destruct Hpc as (Ek & Hlt & Hmode & Hcas). case_decide as Ex.
    + injection Hstep as <- <- <-. pose proof (cas_score _ _ Hcas) as Hsc.
      apply keeps_ent; try done.
      * by destruct c.
      * rewrite Ex. intros ->. destruct c; cbn in Hcas; naive_solver.
      * apply lenok2_after.
      * intros e'. apply holds_after.
      * by right.
      * apply pre_after.
      * intros Hv. right. destruct c; cbn in *; done.
      * rewrite owed_after. rewrite Ex. change (owed (c, E_cas e x m)) with 0%Z. lia.
      * right. split; [done|]. destruct (changing c) eqn:Ec; [by left|right].
        rewrite owed_after. by destruct c.
      * intros Hd. by destruct c.
    + eapply Hgo; [exact Hstep|apply same_refl|done|done| |done|].
      * intros e' He'. by left.
      * intros e' _ He'. by left.
  - (* P_len *)
    injection Hstep as <- <- <-. split; cbn [s_next s_ent s_len set_len]; try done.
    + intros e He. by left.
    + left. unfold score. cbn. lia.
    + intros _ e He. by left.
    + intros e He Hv. by left.
    + intros e He. by left.
  - (* R_next *)
    destruct lab as [|kl|b]; [case_decide; [|done]|destruct (todo !! kl) as [e|] eqn:El; [|done]|done];
      (eapply Hgo; [exact Hstep|apply same_refl|done..]).
  - (* R_load *)
    destruct (slot_val (s_ent s e)); (eapply Hgo; [exact Hstep|apply same_refl|done..]).
  - (* R_call *)
    destruct lab as [|kl|b]; [by destruct c|by destruct c|].
    assert (Hr : s' = s /\ owed (c, p') = 0%Z /\ lenok2 c p' /\ forall e, ~ holds p' e).
    { destruct c, b; try done; injection Hstep as <- <- <-; split_and!; try done; by intros e []. }
    destruct Hr as (-> & Ho & Hok & Hh). apply keeps_same; try done.
    intros e He. by apply Hh in He.
  - (* P_getlen *)
    eapply Hgo; [exact Hstep|apply same_refl|done..].
Qed.

(** ** All goroutines *)
(** No goroutine is between the two parts of Clear. *)
Definition ncl thr : Prop := forall t c, thr !! t <> Some (c, P_clr2).

(** [lo]: the entries made since the counter was set to 0 for the last time are those from [lo] on;
    [old]: the calls that may change the number of keys, were in progress then, and have had no
    effect yet. *)
Record linv (s : shared) thr (lo : nat) (old : gset nat) (n0 : Z) : Prop := mk_linv {
  l_next : lo <= s_next s;
  l_maps : forall e, inm s e -> lo <= e;
  l_old : forall t, t ∈ old -> exists c p, thr !! t = Some (c, p) /\ changing c = true /\ pre p = true;
  l_ok : forall t c p, thr !! t = Some (c, p) -> lenok2 c p;
  l_hold : forall t c p e, thr !! t = Some (c, p) -> changing c = true -> holds p e -> lo <= e \/ t ∈ old;
  l_sum : (Z.abs (s_len s + tot owed thr - live (s_ent s) lo (s_next s)) + Z.of_nat (size old) <= n0)%Z;
  l_val : ncl thr -> forall e, lo <= e -> e < s_next s -> is_Some (slot_val (s_ent s e)) ->
    em s e \/ exists t c p, thr !! t = Some (c, p) /\ deleting c /\ holds p e;
  l_wr : ncl thr -> forall t c p e, thr !! t = Some (c, p) -> writer c -> holds p e -> lo <= e ->
    em s e \/ s_ent s e = SExp }.

Lemma linv_new : linv new_shared ∅ 0 ∅ 0.
Proof.
  split; cbn; try done; try lia.
Qed.

Lemma pre_holds p e : holds p e -> pre p = true.
Proof. destruct p as [| | | | | | | | | | | | |[]| | | | | | | | | | | | ]; done. Qed.

Lemma size_minus (o : gset nat) t :
  Z.of_nat (size (o ∖ {[t]})) = (Z.of_nat (size o) - (if decide (t ∈ o) then 1 else 0))%Z.
Proof.
  case_decide as Ht.
  - assert (E : size o = 1 + size (o ∖ {[t]})); [|lia].
    rewrite (union_difference_singleton_L t o) at 1 by done.
    rewrite size_union by set_solver. by rewrite size_singleton.
  - assert (o ∖ {[t]} = o) as -> by set_solver. lia.
Qed.

Lemma owed_enter c : owed (c, enter c) = 0%Z.
Proof. by destruct c. Qed.

(** A call begins. *)
Lemma linv_invoke s thr lo old n0 t c :
  linv s thr lo old n0 -> thr !! t = None -> linv s (<[t := (c, enter c)]> thr) lo old n0.
Proof.
  intros [H1 H2 H3 H4 H5 H6 H7 H8] Ht.
  assert (Hn : ncl (<[t := (c, enter c)]> thr) -> ncl thr).
  { intros Hn u c' Hu. apply (Hn u c'). rewrite lookup_insert_ne; [done|]. intros ->. congruence. }
  assert (Hne : forall u x, thr !! u = Some x -> <[t := (c, enter c)]> thr !! u = Some x).
  { intros u x Hu. rewrite lookup_insert_ne; [done|]. intros ->. congruence. }
  assert (Hen : forall e, ~ holds (enter c) e) by (intros e; destruct c; by intros []).
  split; try done.
  - intros u Hu. destruct (H3 u Hu) as (c' & p' & Hp' & ? & ?). exists c', p'. auto.
  - intros u c' p' [[<- [= <- <-]]|[_ Hu]]%lookup_insert_Some; [by destruct c|eauto].
  - intros u c' p' e [[<- [= <- <-]]|[_ Hu]]%lookup_insert_Some; [|eauto]. intros _ He. by destruct (Hen e).
  - rewrite tot_insert by done. rewrite owed_enter. done.
  - intros Hn' e He1 He2 Hv. destruct (H7 (Hn Hn') e He1 He2 Hv) as [?|(u & c' & p' & Hu & ? & ?)]; [by left|right].
    exists u, c', p'. auto.
  - intros Hn' u c' p' e [[<- [= <- <-]]|[_ Hu]]%lookup_insert_Some; [|eauto]. intros _ He. by destruct (Hen e).
Qed.

(** A call returns. *)
Lemma linv_return s thr lo old n0 t c r :
  linv s thr lo old n0 -> thr !! t = Some (c, X_ret r) -> linv s (delete t thr) lo old n0.
Proof.
  intros [H1 H2 H3 H4 H5 H6 H7 H8] Ht.
  assert (Hn : ncl (delete t thr) -> ncl thr).
  { intros Hn u c' Hu. apply (Hn u c'). rewrite lookup_delete_ne; [done|]. intros ->. congruence. }
  split; try done.
  - intros u Hu. destruct (H3 u Hu) as (c' & p' & Hp' & ? & ?). exists c', p'.
    rewrite lookup_delete_ne; [done|]. intros ->. rewrite Ht in Hp'. by injection Hp' as <- <-.
  - intros u c' p' [_ Hu]%lookup_delete_Some. eauto.
  - intros u c' p' e [_ Hu]%lookup_delete_Some. eauto.
  - rewrite (tot_delete _ _ _ _ Ht). cbn. by rewrite Z.sub_0_r.
  - intros Hn' e He1 He2 Hv. destruct (H7 (Hn Hn') e He1 He2 Hv) as [?|(u & c' & p' & Hu & ? & ?)]; [by left|right].
    exists u, c', p'. rewrite lookup_delete_ne; [done|]. intros ->. rewrite Ht in Hu. by injection Hu as <- <-.
  - intros Hn' u c' p' e [_ Hu]%lookup_delete_Some. eauto.
Qed.

(** A step that is not the last part of Clear. *)
Lemma linv_keeps s thr lo old n0 t c p s' p' kof :
  linv s thr lo old n0 -> thr !! t = Some (c, p) -> keeps lo c p s p' s' ->
  p <> P_clr2 -> (p = P_clr -> p' = P_clr2) ->
  (forall u cu pu, thr !! u = Some (cu, pu) -> pcinv cu pu s kof) ->
  (forall u cu pu, thr !! u = Some (cu, pu) -> locked pu = true -> locked p = true -> u = t) ->
  mapok kof (s_next s) (emap s) ->
  linv s' (<[t := (c, p')]> thr) lo (if pre p' then old else old ∖ {[t]}) n0.
Proof.
  intros [H1 H2 H3 H4 H5 H6 H7 H8] Ht Hk Hp Hcl Hpc Hlk Hmo. destruct Hk.
  assert (Hn : ncl (<[t := (c, p')]> thr) -> ncl thr /\ p <> P_clr).
  { intros Hn. split.
    - intros u c' Hu. apply (Hn u c'). rewrite lookup_insert_ne; [done|]. intros ->. congruence.
    - intros ->. apply (Hn t c). rewrite (Hcl eq_refl). apply lookup_insert. }
  assert (Hwem : forall u cu pu e, ncl thr -> p <> P_clr -> thr !! u = Some (cu, pu) -> writer cu -> holds pu e -> lo <= e ->
    em s' e \/ s_ent s' e = SExp).
  { intros u cu pu e Hn1 Hpl Hu Hw Hh He. destruct (H8 Hn1 u cu pu e Hu Hw Hh He) as [Hem|Hx].
    - destruct (k_em0 Hpl e Hem) as [?|[?|(Hd & -> & Hh' & Hno)]]; [by left|by right|exfalso].
      destruct Hem as (k & Hk). destruct (Hmo _ _ Hk) as [<- _].
      pose proof (Hpc _ _ _ Hu) as Hpu.
      destruct pu as [| | | | | | | | | | | | |[e'|]| | | | |e' m'|e' x' m'| | | | | | ]; cbn in Hh; try done; subst e'; cbn in Hpu.
      + destruct Hpu as [Hf _]. by destruct cu.
      + destruct Hpu as (_ & _ & Hmode). destruct m'; cbn in Hmode; [by apply (Hno (kof e)), Hmode| |].
        * assert (u = t) as -> by (by eapply Hlk). rewrite Ht in Hu. discriminate Hu.
        * assert (u = t) as -> by (by eapply Hlk). rewrite Ht in Hu. discriminate Hu.
      + destruct Hpu as (_ & _ & Hmode & _). destruct m'; cbn in Hmode; [by apply (Hno (kof e)), Hmode| |].
        * assert (u = t) as -> by (by eapply Hlk). rewrite Ht in Hu. discriminate Hu.
        * assert (u = t) as -> by (by eapply Hlk). rewrite Ht in Hu. discriminate Hu.
    - destruct (k_exp0 e Hx); auto. }
  split.
  - lia.
  - intros e He. destruct (k_maps0 e He) as [?|?]; [auto|lia].
  - intros u Hu. destruct (decide (u = t)) as [->|Hne].
    + destruct (pre p') eqn:Epp; [|set_solver]. destruct (H3 t Hu) as (c' & q & Hq & Hc & _). rewrite Ht in Hq.
      injection Hq as <- <-. exists c, p'. by rewrite lookup_insert.
    + assert (Hu' : u ∈ old) by (destruct (pre p'); set_solver).
      destruct (H3 u Hu') as (c' & q & Hq & ? & ?). exists c', q. by rewrite lookup_insert_ne.
  - intros u c' q [[<- [= <- <-]]|[_ Hu]]%lookup_insert_Some; [done|eauto].
  - intros u c' q e [[<- [= <- <-]]|[Hne Hu]]%lookup_insert_Some Hc He.
    + rewrite (pre_holds _ _ He). destruct (k_hold0 e He) as [Hh|Hi]; [eauto|left; auto].
    + destruct (H5 _ _ _ _ Hu Hc He) as [?|?]; [by left|right]. destruct (pre p'); set_solver.
  - rewrite (tot_update _ _ _ _ _ Ht). unfold score in k_len0.
    destruct k_len0 as [Hs|(Hc & Hp1 & Hp2 & (e & Hh & He) & Hs)].
    + assert (Z.of_nat (size (if pre p' then old else old ∖ {[t]})) <= Z.of_nat (size old))%Z.
      { destruct (pre p'); [lia|]. rewrite size_minus. case_decide; lia. }
      lia.
    + rewrite Hp2, size_minus. destruct (H5 _ _ _ _ Ht Hc Hh) as [?|Ho]; [lia|]. rewrite decide_True by done. lia.
  - intros Hn' e He1 He2 Hv. destruct (Hn Hn') as [Hn1 Hpl].
    destruct (k_val0 e He2 Hv) as [[He2' Hv']|[?|(Hw & Hh & Hx)]]; [|by left|].
    + destruct (H7 Hn1 e He1 He2' Hv') as [Hem|(u & c' & q & Hu & Hd & Hh)].
      * destruct (k_em0 Hpl e Hem) as [?|[Hx|(Hd & _ & Hh & _)]]; [by left| |].
        -- rewrite Hx in Hv. by destruct Hv.
        -- right. exists t, c, p'. by rewrite lookup_insert.
      * destruct (decide (u = t)) as [->|Hne].
        -- rewrite Ht in Hu. injection Hu as <- <-. destruct (k_del0 e Hd Hh) as [Hh'|Hx].
           ++ right. exists t, c, p'. by rewrite lookup_insert.
           ++ rewrite Hx in Hv. by destruct Hv.
        -- right. exists u, c', q. by rewrite lookup_insert_ne.
    + destruct (Hwem t c p e Hn1 Hpl Ht Hw Hh He1) as [?|Hx']; [by left|]. rewrite Hx' in Hv. by destruct Hv.
  - intros Hn' u c' q e Hu Hw Hh He. destruct (Hn Hn') as [Hn1 Hpl].
    apply lookup_insert_Some in Hu as [[<- [= <- <-]]|[Hne Hu]].
    + destruct (k_hw0 e Hw Hh) as [Hh'|?]; [|by left]. by eapply (Hwem t c p).
    + by eapply (Hwem u c' q).
Qed.

(** ** Counting goroutines *)
Lemma old_set thr :
  exists old : gset nat,
    (forall t, t ∈ old <-> exists c p, thr !! t = Some (c, p) /\ changing c = true /\ pre p = true) /\
    Z.of_nat (size old) = tot (fun cp => if changing cp.1 && pre cp.2 then 1 else 0)%Z thr.
Proof.
  induction thr as [|t [c p] thr Ht (old & Ho & Hs)] using map_ind.
  - exists ∅. rewrite tot_empty, size_empty. split; [|done]. intros t. rewrite elem_of_empty. split; [done|].
    intros (c & p & Hp & _). by rewrite lookup_empty in Hp.
  - rewrite tot_insert by done. cbn [fst snd].
    assert (Hnt : t ∉ old) by (intros (c' & p' & Hp & _)%Ho; congruence).
    destruct (changing c && pre p) eqn:Ec.
    + apply andb_true_iff in Ec as [Ec Ep]. exists ({[t]} ∪ old). split.
      * intros u. rewrite elem_of_union, elem_of_singleton, Ho. destruct (decide (u = t)) as [->|Hne].
        -- rewrite lookup_insert. split; [|by left]. intros _. by exists c, p.
        -- rewrite lookup_insert_ne by done. naive_solver.
      * rewrite size_union by set_solver. rewrite size_singleton. lia.
    + exists old. split; [|lia]. intros u. rewrite Ho. destruct (decide (u = t)) as [->|Hne].
      * rewrite lookup_insert, Ht. split; [naive_solver|]. intros (c' & p' & [= <- <-] & E1 & E2).
        rewrite E1, E2 in Ec. done.
      * by rewrite lookup_insert_ne.
Qed.

Lemma tot_le (f g : call * pc -> Z) thr :
  (forall t cp, thr !! t = Some cp -> (f cp <= g cp)%Z) -> (tot f thr <= tot g thr)%Z.
Proof.
  induction thr as [|t cp thr Ht IH] using map_ind; intros Hfg; [by rewrite !tot_empty|].
  rewrite !tot_insert by done.
  assert (f cp <= g cp)%Z by (apply (Hfg t); apply lookup_insert).
  assert (tot f thr <= tot g thr)%Z; [|lia]. apply IH. intros u x Hu. apply (Hfg u).
  rewrite lookup_insert_ne; [done|]. intros ->. congruence.
Qed.
Lemma tot_add (f g : call * pc -> Z) thr : tot (fun cp => f cp + g cp)%Z thr = (tot f thr + tot g thr)%Z.
Proof.
  induction thr as [|t cp thr Ht IH] using map_ind; [by rewrite !tot_empty|]. rewrite !tot_insert by done. lia.
Qed.
Lemma tot_abs (f : call * pc -> Z) thr : (Z.abs (tot f thr) <= tot (fun cp => Z.abs (f cp)) thr)%Z.
Proof.
  induction thr as [|t cp thr Ht IH] using map_ind; [by rewrite !tot_empty|]. rewrite !tot_insert by done. lia.
Qed.

Lemma owed_pre c p : pre p = true -> owed (c, p) = 0%Z.
Proof. by destruct p. Qed.

Lemma owed_chg c p : lenok2 c p -> (Z.abs (owed (c, p)) <= chg c)%Z.
Proof.
  intros Hok.
  assert (0 <= chg c)%Z by (unfold chg; destruct (changing c); lia).
  assert (Hx : owed (c, p) = 0%Z \/ exists r, owed (c, p) = delta c r) by (destruct p; cbn in *; eauto).
  destruct Hx as [->|[r ->]]; [lia|]. destruct (chg_delta c) as [Hd|Hd]; specialize (Hd r); lia.
Qed.

(** The last part of Clear. *)
Lemma linv_zero s thr lo old n0 t c p' :
  linv s thr lo old n0 -> thr !! t = Some (c, P_clr2) -> s_rd s = ∅ -> s_am s = false -> c = CClear -> p' = P_un RUnit ->
  (forall u cu pu e, thr !! u = Some (cu, pu) -> holds pu e -> e < s_next s) ->
  exists old', linv (set_len 0 (set_misses 0 (set_dirty ((fun _ => ∅) <$> s_dirty s) s)))
    (<[t := (c, p')]> thr) (s_next s) old' (Z.of_nat (changing_now thr)).
Proof.
  intros [H1 H2 H3 H4 H5 H6 H7 H8] Ht Erd Eam -> -> Hlt.
  destruct (old_set thr) as (old' & Ho & Hsz). exists old'.
  assert (Hin : forall e, ~ inm (set_len 0 (set_misses 0 (set_dirty ((fun _ => ∅) <$> s_dirty s) s))) e).
  { intros e (k & [Hk|Hk]); cbn in Hk.
    - by rewrite Erd, lookup_empty in Hk.
    - unfold dirty_map in Hk. cbn in Hk. destruct (s_dirty s); cbn in Hk; by rewrite lookup_empty in Hk. }
  split; cbn [s_next s_ent s_len set_len set_misses set_dirty].
  - done.
  - intros e He. by destruct (Hin e).
  - intros u (c' & q & Hu & ? & ?)%Ho. exists c', q. rewrite lookup_insert_ne; [done|]. intros ->.
    rewrite Ht in Hu. by injection Hu as <- <-.
  - intros u c' q [[<- [= <- <-]]|[_ Hu]]%lookup_insert_Some; [done|eauto].
  - intros u c' q e [[<- [= <- <-]]|[Hne Hu]]%lookup_insert_Some Hc He; [done|].
    right. apply Ho. exists c', q. split; [done|]. split; [done|]. by eapply pre_holds.
  - rewrite live_none by done. rewrite (tot_update _ _ _ _ _ Ht). cbn [owed fst snd delta].
    rewrite Hsz, <- tot_changing. pose proof (tot_abs owed thr) as Ha.
    pose proof (tot_le (fun cp => Z.abs (owed cp) + (if changing cp.1 && pre cp.2 then 1 else 0))%Z (fun cp => chg cp.1) thr) as Hle.
    rewrite tot_add in Hle.
    lapply Hle; [lia|]. intros u [c' q] Hu. cbn [fst snd]. pose proof (owed_chg _ _ (H4 _ _ _ Hu)) as Hx.
    destruct (pre q) eqn:Eq; [rewrite (owed_pre _ _ Eq)|]; unfold chg in *; destruct (changing c'); cbn; lia.
  - intros _ e He1 He2. lia.
  - intros _ u c' q e [[<- [= <- <-]]|[Hne Hu]]%lookup_insert_Some Hw Hh He; [done|].
    specialize (Hlt _ _ _ _ Hu Hh). lia.
Qed.

Lemma pc_held kof c p s e : pcinv c p s kof -> holds p e -> e < s_next s.
Proof.
  destruct p as [| | | | | | | | | | | | |[e'|]| | | | |e' m'|e' x' m'| | | | | | ]; cbn; try done; intros Hp ->; tauto.
Qed.

Lemma clr2_dec p : p = P_clr2 \/ p <> P_clr2.
Proof. destruct p; first [left; reflexivity|right; discriminate]. Qed.

Lemma linv_act (cf : config) a cf' ev tr lo old n0 :
  good (c_sh cf) (c_thr cf) tr -> linv (c_sh cf) (c_thr cf) lo old n0 ->
  act cf a = Some (cf', ev) ->
  exists lo' old', linv (c_sh cf') (c_thr cf') lo' old'
    (if zeroes cf a then Z.of_nat (changing_now (c_thr cf)) else n0).
Proof.
  intros (h & kof & m & Hc & _) Hl Hact. destruct cf as [s thr]. cbn [c_sh c_thr] in *.
  destruct Hc as [_ _ Hs Hpc Hlock Hlock2 _ _ _ _].
  destruct a as [t c|t lab]; cbn in Hact |- *.
  - destruct (thr !! t) eqn:Ht; [done|]. injection Hact as <- <-. exists lo, old. cbn. by apply linv_invoke.
  - destruct (thr !! t) as [[c p]|] eqn:Ht; [|done].
    destruct (step t c p s lab) as [[[[p'|] s'] ev']|] eqn:Hstep; [| |done]; injection Hact as <- <-; cbn [c_sh c_thr].
    + assert (Hph : locked p = true -> sinv (phase_of p) s kof).
      { intros Hlk. apply (Hlock _ _ _ Ht) in Hlk. unfold the_phase in Hs. by rewrite Hlk, Ht in Hs. }
      destruct (clr2_dec p) as [->|Hd].
      * destruct lab; try done. injection Hstep as <- <- <-.
        specialize (Hph eq_refl). destruct Hph as (_ & _ & Eam & Erd).
        pose proof (Hpc _ _ _ Ht) as Hcc. cbn in Hcc.
        edestruct (linv_zero s thr) as (old' & Ho); [done|done|done|done|done|done| |].
        { intros u cu pu e Hu He. eapply pc_held; [by eapply Hpc|done]. }
        exists (s_next s), old'. exact Ho.
      * assert (Ez : match p with P_clr2 => true | _ => false end = false) by (by destruct p).
        rewrite Ez. eexists lo, _. eapply linv_keeps; [done|done| |done| |done| |].
        -- eapply step_keeps; [apply Hl|apply Hl|done|by eapply Hpc|done|done].
        -- intros ->. destruct lab; try done. by injection Hstep as <- <- <-.
        -- intros u cu pu Hu H1 H2. apply (Hlock _ _ _ Hu) in H1. apply (Hlock _ _ _ Ht) in H2. congruence.
        -- intros k e Hk. destruct Hs as (M1 & M2 & _). unfold emap in Hk. destruct (s_am s); [|by apply M1].
           apply lookup_union_Some_raw in Hk as [Hk|[_ Hk]]; [by apply M1|by apply M2].
    + assert (exists r, p = X_ret r /\ s' = s) as (r & -> & ->).
      { destruct p as [| | | | | | | | | | | | |[]| | | | | | | | | | | | ], lab; cbn in Hstep; try done;
          unfold step_read, step_read2, step_dirty, step_load, add_key, dirty_store, goto in Hstep;
          repeat (case_match || case_decide); simplify_eq; eauto 10. }
      exists lo, old. by eapply linv_return.
Qed.

Lemma linv_run acts (cf : config) cf' ev tr lo old n0 :
  good (c_sh cf) (c_thr cf) tr -> linv (c_sh cf) (c_thr cf) lo old (Z.of_nat n0) ->
  run cf acts = Some (cf', ev) ->
  exists lo' old', linv (c_sh cf') (c_thr cf') lo' old'
    (Z.of_nat (at_last_clear deref zero veq cf acts n0)).
Proof.
  revert cf tr ev lo old n0. induction acts as [|a acts IH]; intros cf tr ev lo old n0 Hg Hl Hr; cbn in Hr |- *.
  - injection Hr as <- <-. eauto.
  - destruct (act cf a) as [[cf1 ev1]|] eqn:Ha; [|done].
    destruct (run cf1 acts) as [[cf2 ev2]|] eqn:Hr2; [|done]. injection Hr as <- <-.
    destruct (linv_act _ _ _ _ _ _ _ _ Hg Hl Ha) as (lo' & old' & Hl').
    eapply act_good in Hg; [|exact Ha].
    eapply IH; [exact Hg| |exact Hr2].
    instantiate (1 := old'). instantiate (1 := lo'). by destruct (zeroes cf a).
Qed.

(** ** The entries with a value and the keys *)
Definition held (cp : call * pc) : option nat :=
  match cp.1, cp.2 with
  | (CLoadAndDelete _ | CDelete _), (P_une (Some e) | E_load e _ | E_cas e _ _) => Some e
  | _, _ => None
  end.
Definition held1 (cp : call * pc) : Z := if held cp then 1 else 0.

Lemma held_holds c p e : deleting c -> holds p e -> held (c, p) = Some e.
Proof.
  destruct c; try done; intros _;
    destruct p as [| | | | | | | | | | | | |[e'|]| | | | |e' m'|e' x' m'| | | | | | ]; cbn; try done; by intros ->.
Qed.

Lemma tot_held thr : tot held1 thr = Z.of_nat (length (omap (fun tcp => held tcp.2) (map_to_list thr))).
Proof.
  induction thr as [|t cp thr Ht IH] using map_ind.
  - by rewrite tot_empty, map_to_list_empty.
  - rewrite tot_insert by done. rewrite map_to_list_insert by done. cbn. unfold held1 at 1.
    rewrite IH. destruct (held cp); cbn; lia.
Qed.

Lemma held_chg c p : lenok2 c p -> (Z.abs (owed (c, p)) + held1 (c, p) <= chg c)%Z.
Proof.
  intros Hok. pose proof (owed_chg _ _ Hok) as Ho. unfold held1.
  destruct (held (c, p)) as [e|] eqn:E; [|lia].
  assert (owed (c, p) = 0%Z /\ chg c = 1%Z) as [-> ->]; [|lia].
  destruct c; try done; destruct p as [| | | | | | | | | | | | |[e'|]| | | | |e' m'|e' x' m'| | | | | | ]; done.
Qed.

Lemma NoDup_le (l k : list nat) : NoDup l -> (forall x, x ∈ l -> x ∈ k) -> length l <= length k.
Proof. intros Hn Hs. by apply submseteq_length, NoDup_submseteq. Qed.

Lemma live_contents s thr lo old n0 kof :
  linv s thr lo old n0 -> ncl thr -> mapok kof (s_next s) (emap s) ->
  (Z.of_nat (size (contents s)) <= live (s_ent s) lo (s_next s) <=
   Z.of_nat (size (contents s)) + tot held1 thr)%Z.
Proof.
  intros Hl Hn Hmo. rewrite live_list, tot_held.
  set (g := fun kv : K * V => default 0 (emap s !! kv.1)).
  assert (Hin : forall k v, (k, v) ∈ map_to_list (contents s) -> exists e, emap s !! k = Some e /\ slot_val (s_ent s e) = Some v).
  { intros k v Hkv. apply elem_of_map_to_list in Hkv. rewrite contents_lookup in Hkv.
    destruct (emap s !! k) as [e|]; [|done]. by exists e. }
  assert (Hvz : forall x, vz x = 1%Z <-> is_Some (slot_val x)).
  { intros []; cbn; split; try done; by intros []. }
  assert (Hvl : forall e, e ∈ vlist (s_ent s) lo (s_next s) <-> lo <= e /\ e < s_next s /\ is_Some (slot_val (s_ent s e))).
  { intros e. unfold vlist. rewrite elem_of_list_filter, elem_of_seq, Hvz. split; [intros [[? ?] ?]|intros (? & ? & ?)]; split_and!; try done; lia. }
  assert (Hsz : size (contents s) = length (g <$> map_to_list (contents s))) by (by rewrite fmap_length).
  split.
  - rewrite Hsz. apply Nat2Z.inj_le, NoDup_le.
    + apply NoDup_fmap_2_strong; [|apply NoDup_map_to_list].
      intros [k1 v1] [k2 v2] H1 H2 Eg. destruct (Hin _ _ H1) as (e1 & E1 & V1), (Hin _ _ H2) as (e2 & E2 & V2).
      unfold g in Eg. cbn in Eg. rewrite E1, E2 in Eg. cbn in Eg. subst e2.
      destruct (Hmo _ _ E1) as [<- _], (Hmo _ _ E2) as [<- _]. congruence.
    + intros e He. apply elem_of_list_fmap in He as ([k v] & -> & Hkv).
      destruct (Hin _ _ Hkv) as (e & E1 & V1). unfold g. cbn. rewrite E1. cbn. apply Hvl.
      split; [apply (l_maps _ _ _ _ _ Hl), em_inm; by exists k|]. split; [by apply (Hmo _ _ E1)|]. by rewrite V1.
  - rewrite Hsz, <- Nat2Z.inj_add, <- app_length. apply Nat2Z.inj_le, NoDup_le.
    + unfold vlist. apply NoDup_filter, NoDup_seq.
    + intros e (He1 & He2 & Hv)%Hvl. apply elem_of_app.
      destruct (l_val _ _ _ _ _ Hl Hn e He1 He2 Hv) as [(k & Hk)|(t & c & p & Ht & Hd & Hh)].
      * left. destruct Hv as [v Hv]. apply elem_of_list_fmap. exists (k, v). split; [unfold g; cbn; by rewrite Hk|].
        apply elem_of_map_to_list. by rewrite contents_lookup, Hk.
      * right. apply elem_of_list_omap. exists (t, (c, p)). split; [by apply elem_of_map_to_list|]. by apply held_holds.
Qed.

Lemma run_len_gen (acts : list (action K V)) (cf : config) tr :
  Inhabited K -> run new_config acts = Some (cf, tr) ->
  (forall t c, c_thr cf !! t <> Some (c, P_clr2)) ->
  (Z.abs (s_len (c_sh cf) - Z.of_nat (size (contents (c_sh cf)))) <=
   Z.of_nat (changing_now (c_thr cf)) + Z.of_nat (at_last_clear deref zero veq new_config acts 0))%Z.
Proof.
  intros Hinh Hr Hn.
  destruct (linv_run acts new_config cf tr [] 0 ∅ 0 (new_good deref veq Hinh) linv_new Hr) as (lo & old & Hl).
  pose proof (run_good deref zero veq _ _ _ _ _ (new_good deref veq Hinh) Hr) as (h & kof & m & Hc & _).
  destruct Hc as [_ _ Hs _ _ _ _ _ _ _].
  assert (Hmo : mapok kof (s_next (c_sh cf)) (emap (c_sh cf))).
  { intros k e Hk. destruct Hs as (M1 & M2 & _). unfold emap in Hk. destruct (s_am (c_sh cf)); [|by apply M1].
    apply lookup_union_Some_raw in Hk as [Hk|[_ Hk]]; [by apply M1|by apply M2]. }
  pose proof (live_contents _ _ _ _ _ _ Hl Hn Hmo) as [Hlo Hhi].
  pose proof (l_sum _ _ _ _ _ Hl) as Hsum. pose proof (tot_abs owed (c_thr cf)) as Ha.
  pose proof (tot_le (fun cp => Z.abs (owed cp) + held1 cp)%Z (fun cp => chg cp.1) (c_thr cf)) as Hle.
  rewrite tot_add, tot_changing in Hle.
  lapply Hle; [lia|]. intros t [c p] Ht. apply held_chg. by eapply (l_ok _ _ _ _ _ Hl).
Qed.

End gen.
