(** rwmap with keys that cannot be hashed: proofs. *)
From Coq Require Import ZifyBool ZifyNat.
From Verif Require Import Base RwMapModel RwMapHashModel RwMapHashSpec.

Section hash.
Context {K : Type} `{Countable K} {V : Type}.
Context (deref : nat -> V) (zero : V) (veq : V -> V -> option bool).
Notation run := (run deref zero veq). Notation act := (act deref zero veq). Notation step := (step deref zero veq).
Notation hrun := (hrun deref zero veq). Notation hact := (hact deref zero veq).

Lemma set_len_twice m n (s : shared K) : set_len m (set_len n s) = set_len m s. Proof. done. Qed.
Lemma set_len_same (s : shared K) : set_len (s_len s) s = s. Proof. by destruct s. Qed.
Lemma but_len_set (s s' : shared K) : but_len s s' -> s' = set_len (s_len s') s.
Proof. destruct s, s'. unfold but_len, set_len. cbn. congruence. Qed.

Lemma miss_len n (s : shared K) : missLocked (set_len n s) = set_len n (missLocked s).
Proof. unfold missLocked. cbn. change (dirty_map (set_len n s)) with (dirty_map s). by case_decide. Qed.
(** A step of a call other than Len does not look at the counter. *)
Lemma step_len t c p (s : shared K) lab op s1 ev n :
  p <> P_getlen -> step t c p s lab = Some (op, s1, ev) ->
  op <> Some P_getlen /\ exists n1, step t c p (set_len n s) lab = Some (op, set_len n1 s1, ev).
Proof.
  intros Hp Hs.
  assert (Hfin : forall r, finish c r <> @P_getlen K _ _ V) by (intros r; unfold finish; by case_decide).
  assert (Haft : forall m r, after c m r <> @P_getlen K _ _ V) by (intros [] r; cbn; auto).
  assert (Hpan : forall m, after_panic m <> @P_getlen K _ _ V) by (by intros []).
  destruct p, lab; cbn [RwMapModel.step] in *; try done;
    unfold step_read, step_read2, step_dirty, step_load, add_key, dirty_store, goto in *;
    change (dirty_map (set_len n s)) with (dirty_map s); cbn [set_len new_entry set_ent s_rd s_am s_dirty s_ent s_next s_misses s_lock] in *;
    repeat first [ progress simplify_eq | done | case_match ];
    try (split; [first [done | intros [=]; by eapply Hfin | intros [=]; by eapply Haft | intros [=]; by eapply Hpan | intros [=]; done]|]);
    try (eexists; rewrite ?miss_len; first [reflexivity | done]).
  all: exists n; change (set_dirty (delete k <$> s_dirty s) (set_len n s)) with (set_len n (set_dirty (delete k <$> s_dirty s) s)); by rewrite miss_len.
Qed.
(** What a step adds to the counter *)
Definition adds_len (p : pc K V) : Z := match p with P_len _ d => d | _ => 0%Z end.
Lemma miss_s_len (s : shared K) : s_len (missLocked s) = s_len s.
Proof. unfold missLocked. by case_decide. Qed.
Lemma step_adds t c p (s : shared K) lab op s1 ev : p <> P_clr2 -> step t c p s lab = Some (op, s1, ev) -> s_len s1 = (s_len s + adds_len p)%Z.
Proof.
  intros Hp Hs. destruct p, lab; cbn [RwMapModel.step adds_len] in *; try done;
    unfold step_read, step_read2, step_dirty, step_load, add_key, dirty_store, goto in *;
    repeat first [ progress simplify_eq | done | case_match ]; rewrite ?miss_s_len; cbn; lia.
Qed.
(** A call other than Clear does not do what Clear does. *)
Definition clr_pc (p : pc K V) : Prop := match p with P_clr | P_clr2 => True | _ => False end.
Lemma step_clr t c p (s : shared K) lab p' s1 ev : c <> CClear -> ~ clr_pc p -> step t c p s lab = Some (Some p', s1, ev) -> ~ clr_pc p'.
Proof.
  intros Hc Hp Hs.
  assert (Hfin : forall r, ~ clr_pc (finish c r)) by (intros r; unfold finish; by case_decide; intros []).
  assert (Haft : forall m r, ~ clr_pc (after c m r)) by (intros [] r; cbn; auto).
  assert (Hpan : forall m, ~ clr_pc (after_panic m)) by (by intros [] []).
  destruct p, lab; cbn [RwMapModel.step] in *; try done;
    unfold step_read, step_read2, step_dirty, step_load, add_key, dirty_store, goto in *;
    repeat first [ progress simplify_eq | done | by apply Hfin | by apply Haft | by apply Hpan | by intros [] | case_match ]; by destruct Hp.
Qed.
(** The events of a step, which is one of the goroutine *)
Lemma step_events t c p (s : shared K) lab op s1 ev : step t c p s lab = Some (op, s1, ev) ->
  (exists p', op = Some p' /\ (ev = [] \/ exists k v b, ev = [ECall t k v b])) \/ (op = None /\ exists r, ev = [ERet t r]).
Proof.
  intros Hs. destruct p, lab; cbn [RwMapModel.step] in *; try done;
    unfold step_read, step_read2, step_dirty, step_load, add_key, dirty_store, goto in *;
    repeat first [ progress simplify_eq | done | case_match ]; eauto 10.
Qed.
(** The steps of Len *)
Definition len_pc (p : pc K V) : Prop := match p with P_getlen | X_ret _ => True | _ => False end.
Lemma step_Len t p (s : shared K) lab op s1 ev : len_pc p -> step t CLen p s lab = Some (op, s1, ev) ->
  s1 = s /\ match op with Some p' => len_pc p' /\ ev = [] | None => exists r, ev = [ERet t r] end.
Proof. intros Hp Hs. destruct p; try done; destruct lab; try done; cbn in Hs; unfold goto in Hs; simplify_eq; eauto. Qed.

(** An execution without the calls with keys that cannot be hashed and without the calls of Len *)
Record hrel (hc : hconfig K V) (cf : config K V) (l : gset nat) : Prop := {
  hr_sh : but_len (c_sh (h_cf hc)) (c_sh cf);
  hr_thr : forall t, c_thr cf !! t = match c_thr (h_cf hc) !! t with Some (CLen, _) => None | o => o end;
  hr_len : forall t, t ∈ l <-> exists p, c_thr (h_cf hc) !! t = Some (CLen, p);
  hr_pc : forall t c p, c_thr (h_cf hc) !! t = Some (c, p) -> match c with CLen => len_pc p | _ => p <> P_getlen end;
}.
Definition is_len (c : call K V) : bool := match c with CLen => true | _ => false end.
Lemma drop_call l t (c : call K V) tr : is_len c = false -> drop_len l (EInv t c :: tr) = EInv t c :: drop_len l tr.
Proof. by destruct c. Qed.
Lemma hashed_app (a b : list (hevent K V)) : hashed (a ++ b) = hashed a ++ hashed b.
Proof. apply bind_app. Qed.
Lemma hashed_ev (ev : list (event K V)) : hashed (HEv <$> ev) = ev.
Proof. induction ev as [|e ev IH]; [done|]. cbn. f_equal. exact IH. Qed.

(** Nobody is inside Clear. *)
Definition no_clear (hc : hconfig K V) : Prop := forall t c p, c_thr (h_cf hc) !! t = Some (c, p) -> c <> CClear /\ ~ clr_pc p.
(** The action is the counting of a call that panics. *)
Definition counts_now (hc : hconfig K V) (a : haction K V) : Z :=
  match a with HStep t => match h_bad hc !! t with Some (_, B_len) => 1%Z | _ => 0%Z end | _ => 0%Z end.
Definition len_off (hc : hconfig K V) (cf : config K V) : Z := (s_len (c_sh (h_cf hc)) - s_len (c_sh cf))%Z.

Lemma hact_rel hc cf l a hc1 ev : hrel hc cf l -> hact hc a = Some (hc1, ev) ->
  exists acts cf1 l1 tr1, run cf acts = Some (cf1, tr1) /\ hrel hc1 cf1 l1 /\
    (forall tr, drop_len l (hashed ev ++ tr) = tr1 ++ drop_len l1 tr) /\
    (no_clear hc -> len_off hc1 cf1 = len_off hc cf + counts_now hc a)%Z.
Proof.
  intros [Hsh Hthr Hl Hpc] Ha. destruct a as [[t c|t lab]|t b|t]; cbn [RwMapHashModel.hact] in Ha.
  - destruct (h_bad hc !! t) eqn:Hb; [done|]. cbn in Ha.
    destruct (c_thr (h_cf hc) !! t) as [x|] eqn:Ht; [done|]. injection Ha as <- <-.
    destruct (is_len c) eqn:Hc.
    + destruct c; try done. exists [], cf, ({[t]} ∪ l), []. split; [done|]. split; [|split; [done|intros _; unfold len_off; cbn; lia]].
      split; cbn [h_cf c_sh c_thr enter]; [done| | |].
      * intros u. rewrite Hthr. destruct (decide (u = t)) as [->|Hu]; [by rewrite Ht, lookup_insert|by rewrite lookup_insert_ne].
      * intros u. rewrite elem_of_union, elem_of_singleton, Hl. destruct (decide (u = t)) as [->|Hu].
        -- rewrite lookup_insert. split; [by eauto|by left].
        -- rewrite lookup_insert_ne by done. split; [by intros [?|?]|by right].
      * intros u c p. destruct (decide (u = t)) as [->|Hu]; [rewrite lookup_insert; intros [= <- <-]; exact I|rewrite lookup_insert_ne by done; apply Hpc].
    + exists [AInv t c], (mk_config (c_sh cf) (<[t := (c, enter c)]> (c_thr cf))), l, [EInv t c].
      assert (Henter : enter c = @P_read K _ _ V) by (by destruct c).
      split; [cbn; rewrite Hthr, Ht; done|]. split; [|split; [intros tr; cbn [hashed]; change (hashed (HEv <$> [EInv t c])) with [EInv t c]; by apply drop_call|intros _; unfold len_off; cbn; lia]].
      split; cbn [h_cf c_sh c_thr]; [done| | |].
      * intros u. destruct (decide (u = t)) as [->|Hu]; [rewrite !lookup_insert; by destruct c|rewrite !lookup_insert_ne by done; apply Hthr].
      * intros u. rewrite Hl. destruct (decide (u = t)) as [->|Hu]; [rewrite lookup_insert, Ht|by rewrite lookup_insert_ne].
        split; [by intros [? ?]|]. intros [p [= -> _]]. done.
      * intros u c' p. destruct (decide (u = t)) as [->|Hu]; [rewrite lookup_insert, Henter; intros [= <- <-]; by destruct c|rewrite lookup_insert_ne by done; apply Hpc].
  - cbn in Ha. destruct (c_thr (h_cf hc) !! t) as [[c p]|] eqn:Ht; [|done].
    destruct (step t c p (c_sh (h_cf hc)) lab) as [[[op s1] ev1]|] eqn:Hs; [|by rewrite ?Hs in Ha].
    assert (Hev : hashed ev = ev1) by (destruct op; injection Ha as <- <-; apply hashed_ev).
    assert (Hhc : hc1 = mk_hconfig (mk_config s1 (match op with Some p' => <[t := (c, p')]> (c_thr (h_cf hc)) | None => delete t (c_thr (h_cf hc)) end)) (h_bad hc))
      by (destruct op; by injection Ha as <- <-).
    clear Ha. subst hc1. rewrite Hev. clear Hev ev. pose proof (Hpc _ _ _ Ht) as Hp.
    destruct (is_len c) eqn:Hc.
    + destruct c; try done. destruct (step_Len _ _ _ _ _ _ _ Hp Hs) as [-> Hop]. exists [], cf, (match op with Some _ => l | None => l ∖ {[t]} end), [].
      split; [done|]. split; [|split; [|intros _; unfold len_off; cbn; lia]].
      * split; cbn [h_cf c_sh c_thr]; [done| | |].
        -- intros u. rewrite Hthr. destruct (decide (u = t)) as [->|Hu].
           ++ rewrite Ht. destruct op; [by rewrite lookup_insert|by rewrite lookup_delete].
           ++ destruct op; [by rewrite lookup_insert_ne|by rewrite lookup_delete_ne].
        -- intros u. destruct op as [p'|].
           ++ rewrite Hl. destruct (decide (u = t)) as [->|Hu]; [rewrite lookup_insert, Ht; by split; eauto|by rewrite lookup_insert_ne].
           ++ rewrite elem_of_difference, elem_of_singleton, Hl.
              destruct (decide (u = t)) as [->|Hu]; [rewrite lookup_delete; split; [by intros [? []]|by intros [? ?]]|rewrite lookup_delete_ne by done; naive_solver].
        -- intros u c' p'. destruct (decide (u = t)) as [->|Hu].
           ++ destruct op; [rewrite lookup_insert; intros [= <- <-]; apply Hop|by rewrite lookup_delete].
           ++ destruct op; [rewrite lookup_insert_ne by done|rewrite lookup_delete_ne by done]; apply Hpc.
      * intros tr. destruct op as [p'|]; [by destruct Hop as [_ ->]|]. destruct Hop as [r ->]. cbn [app drop_len].
        rewrite decide_True; [done|]. apply Hl. eauto.
    + assert (Hp' : p <> P_getlen) by (by destruct c).
      destruct (step_len t c p _ lab op s1 ev1 (s_len (c_sh cf)) Hp' Hs) as [Hop [n1 Hs1]].
      rewrite <- (but_len_set _ _ Hsh) in Hs1.
      exists [AStep t lab], (mk_config (set_len n1 s1) (match op with Some p' => <[t := (c, p')]> (c_thr cf) | None => delete t (c_thr cf) end)), l, ev1.
      assert (Hcf : c_thr cf !! t = Some (c, p)) by (rewrite Hthr, Ht; by destruct c).
      assert (Hnl : t ∉ l) by (intros [p' Hx]%Hl; rewrite Ht in Hx; by injection Hx as -> _).
      split; [cbn; rewrite Hcf, Hs1; destruct op; by rewrite app_nil_r|]. split; [|split].
      * split; cbn [h_cf c_sh c_thr]; [done| | |].
        -- intros u. destruct (decide (u = t)) as [->|Hu].
           ++ destruct op; [rewrite !lookup_insert; by destruct c|by rewrite !lookup_delete].
           ++ destruct op; [rewrite !lookup_insert_ne by done|rewrite !lookup_delete_ne by done]; apply Hthr.
        -- intros u. rewrite Hl. destruct (decide (u = t)) as [->|Hu].
           ++ rewrite Ht. destruct op; [rewrite lookup_insert|rewrite lookup_delete]; split; intros [? Hx]; try done; by injection Hx as -> _.
           ++ destruct op; [by rewrite lookup_insert_ne|by rewrite lookup_delete_ne].
        -- intros u c' p'. destruct (decide (u = t)) as [->|Hu].
           ++ destruct op; [rewrite lookup_insert; intros [= <- <-]; destruct c; try done; congruence|by rewrite lookup_delete].
           ++ destruct op; [rewrite lookup_insert_ne by done|rewrite lookup_delete_ne by done]; apply Hpc.
      * intros tr. destruct (step_events _ _ _ _ _ _ _ _ Hs) as [(p' & -> & [->|(k & v & b & ->)])|(-> & r & ->)]; cbn [app drop_len]; [done|done|].
        by rewrite decide_False.
      * intros Hnc. destruct (Hnc _ _ _ Ht) as [_ Hnp]. assert (Hp2 : p <> P_clr2) by (by intros ->; apply Hnp).
        apply step_adds in Hs; [|done]. apply step_adds in Hs1; [|done]. cbn [s_len set_len] in Hs1. unfold len_off. cbn [h_cf c_sh s_len set_len counts_now]. lia.
  - destruct (c_thr (h_cf hc) !! t) eqn:Ht; [done|]. destruct (h_bad hc !! t); [done|]. injection Ha as <- <-.
    exists [], cf, l, []. split; [done|]. split; [by split|]. split; [done|]. intros _. unfold len_off. cbn. lia.
  - exists [], cf, l, []. split; [done|].
    cbn [counts_now].
    destruct (h_bad hc !! t) as [[b []]|]; [..|done]; injection Ha as <- <-; (split; [by split|]); (split; [done|]); intros _; unfold len_off; cbn; lia.
Qed.
Lemma hrun_rel acts hc cf l hc' ev : hrel hc cf l -> hrun hc acts = Some (hc', ev) ->
  exists acts' cf' l', run cf acts' = Some (cf', drop_len l (hashed ev)) /\ hrel hc' cf' l'.
Proof.
  revert hc cf l ev. induction acts as [|a acts IH]; intros hc cf l ev Hr Hh; cbn [RwMapHashModel.hrun] in Hh.
  { injection Hh as <- <-. exists [], cf, l. done. }
  destruct (hact hc a) as [[hc1 ev1]|] eqn:Ha; [|done]. destruct (hrun hc1 acts) as [[hc2 ev2]|] eqn:Hh2; [|done]. injection Hh as <- <-.
  destruct (hact_rel _ _ _ _ _ _ Hr Ha) as (acts1 & cf1 & l1 & tr1 & H1 & H2 & H3 & _).
  destruct (IH _ _ _ _ H2 Hh2) as (acts2 & cf2 & l2 & H4 & H5).
  exists (acts1 ++ acts2), cf2, l2. split; [|done]. rewrite hashed_app, H3. clear - H1 H4.
  revert cf tr1 H1. induction acts1 as [|x acts1 IH]; intros cf tr1 H1; cbn [RwMapModel.run app] in *.
  { by injection H1 as <- <-. }
  destruct (act cf x) as [[cf3 ev3]|]; [|done]. destruct (run cf3 acts1) as [[cf4 ev4]|] eqn:H5; [|done]. injection H1 as <- <-.
  rewrite (IH _ _ H5). by rewrite app_assoc.
Qed.
Lemma hrel_new : hrel (@new_hconfig K _ _ V) new_config ∅.
Proof.
  split; [done| | |]; cbn [new_hconfig new_config h_cf c_thr].
  - intros t. by rewrite !lookup_empty.
  - intros t. rewrite lookup_empty. split; [by intros ?%not_elem_of_empty|by intros []].
  - intros t c p. by rewrite lookup_empty.
Qed.
End hash.
