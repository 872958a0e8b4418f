(** synccache: from histories to what is observed. *)
From Coq Require Import ZifyBool ZifyNat.
From Verif Require Import Base RwMapModel RwMapSpec SyncCacheModel SyncCacheSpec SyncCacheHist SyncCacheLink SyncCacheDel SyncCacheCalls SyncCacheRange SyncCacheExp.

Section facts.
Context {K : Type} `{Countable K} {V : Type}.
Context (deref : nat -> nat) (veq : V -> V -> option bool) (has_cb : bool).
Local Notation scall := (scall K V).
Local Notation spc := (spc K).
Local Notation sev := (sev K V).
Local Notation world := (world K V).
Local Notation mev := (mev K V).
Local Notation mstate := (mstate K V).
Local Notation mrun := (mrun deref veq has_cb).
Local Notation explains := (explains deref veq has_cb).
Local Notation wrun := (wrun deref veq has_cb).
Local Notation mcase := (mcase deref veq has_cb).
Implicit Types (h : list mev) (m : mstate) (t e : nat) (k : K) (c : scall) (p : spc) (tr : list sev).

Local Ltac ev_in Hin := cbn in Hin; repeat (apply elem_of_cons in Hin as [Hin|Hin]); try (by apply elem_of_nil in Hin); try discriminate Hin.

(** ** Cutting a history where something is observed *)
Lemma trace_cut h m (ev : sev) tr1 tr2 : mrun m_init h m -> trace h = tr1 ++ ev :: tr2 ->
  exists g1 x g2 a b, h = g1 ++ x :: g2 /\ x.2 = a ++ ev :: b /\ tr1 = trace g1 ++ a /\ tr2 = b ++ trace g2.
Proof.
  intros _. revert tr1. induction h as [|x h IH]; intros tr1 E; [by destruct tr1|].
  rewrite trace_cons in E. apply app_eq_inv in E as [(g & E1 & E2)|(g & E1 & E2)].
  - destruct g as [|z g]; cbn in E2.
    + rewrite app_nil_r in E1. destruct (IH [] (eq_sym E2)) as (g1 & y & g2 & a & b & -> & Hy & Ha & Hb).
      exists (x :: g1), y, g2, a, b. split_and!; try done. rewrite trace_cons, <- app_assoc, <- Ha, app_nil_r. done.
    + injection E2 as <- ->. exists [], x, h, tr1, g. done.
  - destruct (IH _ E2) as (g1 & y & g2 & a & b & -> & Hy & -> & Hb).
    exists (x :: g1), y, g2, a, b. split_and!; try done. by rewrite E1, trace_cons, <- app_assoc.
Qed.
Lemma mcase_single m x m' (ev : sev) a b : mcase m x m' -> x.2 = a ++ ev :: b ->
  (forall t n, ev <> SClock t n) -> (forall t e v y, ev <> SNew t e v y) -> a = [] /\ b = [].
Proof.
  intros Hm E H1 H2. destruct Hm; cbn in E; destruct a as [|z [|z' a]]; cbn in E; simplify_list_eq; try done;
    try (by exfalso; eapply H1); try (by exfalso; eapply H2).
  by destruct a.
Qed.
Lemma trace_cut1 h m (ev : sev) tr1 tr2 : mrun m_init h m -> trace h = tr1 ++ ev :: tr2 ->
  (forall t n, ev <> SClock t n) -> (forall t e v y, ev <> SNew t e v y) ->
  exists g1 x g2, h = g1 ++ x :: g2 /\ x.2 = [ev] /\ trace g1 = tr1 /\ trace g2 = tr2.
Proof.
  intros Hr E H1 H2. destruct (trace_cut _ _ _ _ _ Hr E) as (g1 & x & g2 & a & b & -> & Hx & -> & ->).
  apply mrun_app in Hr as (m1 & Hr1 & m2 & Hs & _). apply mstep_case in Hs.
  destruct (mcase_single _ _ _ _ _ _ Hs Hx H1 H2) as [-> ->]. exists g1, x, g2. by rewrite !app_nil_r.
Qed.

Lemma last_inv t c c' (a b a' b' : list sev) : a ++ SInv t c :: b = a' ++ SInv t c' :: b' ->
  (forall c, SInv t c ∉ b) -> (forall c, SInv t c ∉ b') -> a' = a /\ c' = c /\ b' = b.
Proof.
  intros E H1 H2. apply app_eq_inv in E as [(g & -> & E)|(g & -> & E)].
  - destruct g as [|z g]; cbn in E; [injection E as -> ->; by rewrite app_nil_r|]. injection E as <- ->.
    exfalso. apply (H2 c). apply elem_of_app. right. by left.
  - destruct g as [|z g]; cbn in E; [injection E as -> ->; by rewrite app_nil_r|]. injection E as <- ->.
    exfalso. apply (H1 c'). apply elem_of_app. right. by left.
Qed.
Lemma in_call_trace h t c h1 h2 : in_call h t c h1 h2 -> trace h = trace h1 ++ SInv t c :: trace h2.
Proof. intros (-> & _ & _). by rewrite trace_app. Qed.
Lemma in_call_within h t c c' h1 h2 tr1 tr2 : in_call h t c h1 h2 -> trace h = tr1 ++ SInv t c' :: tr2 ->
  within t tr2 -> c = c' /\ trace h1 = tr1 /\ trace h2 = tr2.
Proof.
  intros Hic E [Hw _]. pose proof (in_call_trace _ _ _ _ _ Hic) as E'. destruct Hic as (_ & Hn & _).
  rewrite E' in E. by destruct (last_inv _ _ _ _ _ _ _ E Hn Hw) as (-> & -> & ->).
Qed.

(** ** Comparisons *)
(** Every comparison is made after a reading of the clock in the same call. *)
Lemma chk_in_call h m tr1 t c tr2 e now x tr3 : mrun m_init h m ->
  trace h = tr1 ++ SInv t c :: tr2 ++ SChk t e now x :: tr3 -> within t tr2 ->
  exists n, now = ms n /\ SClock t n ∈ tr2 /\ expiration e None (tr1 ++ SInv t c :: tr2) = Some x.
Proof.
  intros Hr E Hw. rewrite app_comm_cons, app_assoc in E.
  destruct (trace_cut1 _ _ _ _ _ Hr E) as (g1 & y & g2 & -> & Hy & E1 & E2); [done..|].
  pose proof (mrun_checked _ _ _ _ _ _ y g2 t e now x Hr eq_refl) as Hx. rewrite Hy, E1 in Hx.
  apply mrun_app in Hr as (m1 & Hr1 & m2 & Hs & _). apply mstep_case in Hs.
  destruct Hs; cbn in Hy; try discriminate Hy. injection Hy as -> -> -> ->.
  destruct (mrun_informed _ _ _ _ _ Hr1 _ _ _ _ H0) as (h1 & h2 & Hic & Hk).
  destruct (in_call_within _ _ _ _ _ _ _ _ Hic E1 Hw) as (-> & <- & <-).
  assert (exists n, SClock t n ∈ trace h2 /\ now = ms n) as (n & Hn & ->).
  { assert (c = STrim \/ c <> STrim) as [->|Hc] by (destruct c; auto); [|cbn in Hk; destruct Hk as [_ Hk]; by apply Hk].
    destruct (mrun_swept_up _ _ _ _ _ Hr1 _ _ _ _ H0 I) as (h1' & h2' & Hic' & Hck & _).
    destruct (in_call_inj _ _ _ _ _ _ _ _ Hic Hic') as (-> & -> & _). destruct (Hck eq_refl) as (n & -> & Hn).
    exists n. split; [|done]. by apply Hn. }
  exists n. split_and!; [done|done|]. apply Hx. by left.
Qed.

Lemma within_app t tr1 tr2 : within t (tr1 ++ tr2) -> within t tr1 /\ within t tr2.
Proof. intros [H1 H2]. split; split; intros y Hy; try (by eapply H1, elem_of_app; eauto); by eapply H2, elem_of_app; eauto. Qed.

Lemma chk_compares h m tr1 t c tr2 e now x tr3 : mrun m_init h m ->
  trace h = tr1 ++ SInv t c :: tr2 ++ tr3 -> within t tr2 -> SChk t e now x ∈ tr2 ->
  exists n, now = ms n /\ compares (tr1 ++ [SInv t c]) tr2 t e n x.
Proof.
  intros Hr E Hw (a & b & ->)%elem_of_list_split. apply within_app in Hw as [Hw _].
  rewrite <- app_assoc in E. destruct (chk_in_call _ _ _ _ _ _ _ _ _ _ Hr E Hw) as (n & -> & Hn & Hx).
  exists n. split; [done|]. exists a, b. by rewrite <- app_assoc.
Qed.

Lemma chk_compared_at h m h1 t c h2 e now x h3 : mrun m_init h m ->
  h = h1 ++ inv_of t c :: h2 ++ h3 -> within t (trace h2) -> SChk t e now x ∈ trace h2 ->
  exists n, now = ms n /\ compared_at (h1 ++ [inv_of t c]) h2 t e n x.
Proof.
  intros Hr E Hw Hin. unfold compared_at. rewrite trace_snoc. eapply chk_compares; [done| |done|done].
  rewrite E, trace_app, trace_cons, trace_app. done.
Qed.

(** ** A call that has returned *)
Lemma ret_in_call h m tr1 t c tr2 (y : sres) tr3 : mrun m_init h m ->
  trace h = tr1 ++ SInv t c :: tr2 ++ SRet t y :: tr3 -> within t tr2 ->
  exists g1 x g2 h1 h2, h = g1 ++ x :: g2 /\ x.2 = [SRet t y] /\ in_call g1 t c h1 h2 /\
    trace h1 = tr1 /\ trace h2 = tr2 /\
    answers deref veq has_cb (h1 ++ [inv_of t c]) h2 t c y.
Proof.
  intros Hr E Hw. rewrite app_comm_cons, app_assoc in E.
  destruct (trace_cut1 _ _ _ _ _ Hr E) as (g1 & x & g2 & -> & Hx & E1 & E2); [done..|].
  destruct (mrun_answers _ _ _ _ _ _ _ _ t y Hr eq_refl) as (c' & h1 & h2 & Hic & Ha); [rewrite Hx; by left|].
  destruct (in_call_within _ _ _ _ _ _ _ _ Hic E1 Hw) as (-> & Et1 & Et2). by exists g1, x, g2, h1, h2.
Qed.

Lemma returned_live h m tr1 t c tr2 e tr3 : mrun m_init h m ->
  trace h = tr1 ++ SInv t c :: tr2 ++ SRet t (SEnt e true) :: tr3 -> within t tr2 -> looks_up c ->
  exists n x, compares (tr1 ++ [SInv t c]) tr2 t e n x /\ Z.le (ms n) x.
Proof.
  intros Hr E Hw Hc. destruct (ret_in_call _ _ _ _ _ _ _ _ Hr E Hw) as (g1 & x & g2 & h1 & h2 & -> & Hx & Hic & E1 & E2 & Ha).
  assert (found_live h2 t e) as (n & y & Hn & Hy & Hle). { destruct c; try done; cbn in Ha; tauto. }
  rewrite E2 in Hy. destruct (chk_compares _ _ _ _ _ _ _ _ _ _ Hr E Hw Hy) as (n' & En & Hcm).
  exists n', y. split; [done|]. lia.
Qed.

Lemma answered h m tr1 t c tr2 (y : sres) tr3 e n x : mrun m_init h m ->
  trace h = tr1 ++ SInv t c :: tr2 ++ SRet t y :: tr3 -> within t tr2 -> looks_up c ->
  compares (tr1 ++ [SInv t c]) tr2 t e n x -> y = answer_of e (ms n) x.
Proof.
  intros Hr E Hw Hc Hcm. destruct (ret_in_call _ _ _ _ _ _ _ _ Hr E Hw) as (g1 & z & g2 & h1 & h2 & -> & Hx & Hic & E1 & E2 & _).
  eapply mrun_boundary; [done|done|rewrite Hx; by left|done|done|]. rewrite E2. destruct Hcm as (a & b & -> & _).
  apply elem_of_app. right. by left.
Qed.

Lemma used_live h m tr1 t k e b tr2 : mrun m_init h m -> trace h = tr1 ++ SUse t k e b :: tr2 ->
  exists a1 a2, tr1 = a1 ++ SInv t SRange :: a2 /\ within t a2 /\
    exists n x, compares (a1 ++ [SInv t SRange]) a2 t e n x /\ Z.le (ms n) x.
Proof.
  intros Hr E. destruct (trace_cut1 _ _ _ _ _ Hr E) as (g1 & y & g2 & -> & Hy & E1 & E2); [done..|].
  destruct (mrun_used _ _ _ _ _ _ _ _ t k e b Hr eq_refl) as (h1 & h2 & Hic & n & x & Hn & Hx & Hle); [rewrite Hy; by left|].
  pose proof (in_call_trace _ _ _ _ _ Hic) as Et. exists (trace h1), (trace h2). rewrite <- E1. split; [done|].
  assert (Hw : within t (trace h2)) by (by destruct Hic as (_ & ? & ?)). split; [done|].
  rewrite <- E1, Et, <- app_assoc in E. cbn in E.
  destruct (chk_compares _ _ _ _ _ _ _ _ _ _ Hr E Hw Hx) as (n' & En & Hcm).
  exists n', x. split; [done|]. lia.
Qed.

(** ** A new entry *)
Lemma new_entry h m tr1 t e v x tr2 : mrun m_init h m -> trace h = tr1 ++ SNew t e v x :: tr2 ->
  exists a1 c a2 n k d, tr1 = a1 ++ SInv t c :: a2 ++ [SClock t n] /\ within t a2 /\
    (c = SStore k v d \/ c = SLoadOrStore k v d) /\ x = ms (Z.add n d).
Proof.
  intros Hr E. destruct (trace_cut _ _ _ _ _ Hr E) as (g1 & y & g2 & a & b & -> & Hy & -> & ->).
  apply mrun_app in Hr as (m1 & Hr1 & m2 & Hs & _). apply mstep_case in Hs.
  destruct Hs; cbn in Hy; destruct a as [|z [|z' a]]; cbn in Hy; simplify_list_eq; try done; try (by destruct a).
  destruct (mrun_informed _ _ _ _ _ Hr1 _ _ _ _ H0) as (h1 & h2 & Hic & _).
  pose proof (in_call_trace _ _ _ _ _ Hic) as Et.
  exists (trace h1), c, (trace h2), n, k, d. rewrite Et, <- app_assoc. cbn. split_and!; try done.
  by destruct Hic as (_ & ? & ?).
Qed.

(** An entry is not made again. *)
Lemma not_made_again h m tr1 t e v x tr2 : mrun m_init h m -> trace h = tr1 ++ SNew t e v x :: tr2 ->
  forall t' v' x', SNew t' e v' x' ∉ tr1.
Proof.
  intros Hr E t' v' x' Hin. destruct (trace_cut _ _ _ _ _ Hr E) as (g1 & y & g2 & a & b & -> & Hy & -> & ->).
  apply mrun_app in Hr as (m1 & Hr1 & m2 & Hs & _). apply mstep_case in Hs.
  destruct Hs; cbn in Hy; destruct a as [|z [|z' a]]; cbn in Hy; simplify_list_eq; try done; try (by destruct a).
  apply elem_of_app in Hin as [Hin|Hin]; [|ev_in Hin].
  destruct (mrun_made _ _ _ _ _ Hr1) as (H2 & _). apply H2 in Hin. cbn in Hin. lia.
Qed.
Lemma moved h m tr1 e ev tr2 : mrun m_init h m -> trace h = tr1 ++ ev :: tr2 -> shifts e ev ->
  is_Some (expiration e None tr1) /\ forall t v x, SNew t e v x ∉ tr2.
Proof.
  intros Hr E Hmv.
  assert (Hn : (forall t n, ev <> SClock t n) /\ (forall t e v y, ev <> SNew t e v y)).
  { by destruct Hmv as [[? ->]|[? ->]]. }
  destruct (trace_cut1 _ _ _ _ _ Hr E (proj1 Hn) (proj2 Hn)) as (g1 & y & g2 & -> & Hy & E1 & E2).
  pose proof Hr as Hr0. apply mrun_app in Hr as (m1 & Hr1 & m2 & Hs & _). apply mstep_case in Hs.
  assert (is_Some (c_ent (m_cl m1) !! e)) as [[v x] He].
  { destruct Hmv as [[? ->]|[? ->]]; destruct Hs; cbn in Hy; try discriminate Hy; injection Hy as -> ->; cbn; eauto. }
  split.
  - rewrite <- E1, <- (mrun_expiration _ _ _ _ _ Hr1 e), He. by eexists.
  - intros t v' x' Hin. apply elem_of_list_split in Hin as (b1 & b2 & ->).
    destruct (mrun_values _ _ _ _ _ Hr1 _ _ _ He) as (t0 & x0 & Hnew). rewrite E1 in Hnew.
    change (tr1 ++ ev :: b1 ++ SNew t e v' x' :: b2) with (tr1 ++ (ev :: b1) ++ SNew t e v' x' :: b2) in E.
    rewrite app_assoc in E. eapply (not_made_again _ _ _ _ _ _ _ _ Hr0 E). apply elem_of_app. left. exact Hnew.
Qed.

Lemma moved_since e tr o y : expiration e o tr = Some y ->
  (forall ev, shifts e ev -> ev ∉ tr) -> (forall t v x, SNew t e v x ∉ tr) -> o = Some y.
Proof.
  revert o. induction tr as [|ev tr IH]; intros o Hx Hm Hn; cbn in Hx; [done|].
  apply IH in Hx; [|intros ev' Hev Hin; eapply Hm; [done|by right]|intros t v x Hin; eapply Hn; by right].
  rewrite <- Hx. destruct ev; try done; rewrite decide_False; try done; intros ->.
  - eapply Hn. by left.
  - eapply Hm; [left; by eexists|]. by left.
  - eapply Hm; [right; by eexists|]. by left.
Qed.

(** ** deletedCallback *)
Lemma leaving_busy m e t : linked deref has_cb m -> leaving deref m e t -> is_Some (c_fr (m_cl m) !! t).
Proof.
  intros [Hl _] [(c & now & p & Hf & _)|(b & mc & r & Hs & _)]; [by rewrite Hf|].
  destruct (link_call_of _ _ _ _ _ _ _ Hl Hs) as (c & now & p & mc' & Hf & _). by rewrite Hf.
Qed.
Lemma called_back_count tr e : called_back tr e <-> 1 <= times_called_back tr e.
Proof.
  unfold called_back, times_called_back. induction tr as [|ev tr IH]; cbn.
  - split; [|lia]. intros (t & v & Hin). by apply elem_of_nil in Hin.
  - rewrite app_length. setoid_rewrite elem_of_cons. split.
    + intros (t & v & [<-|Hin]); [rewrite decide_True by done; cbn; lia|].
      enough (1 <= length (tr ≫= (fun ev => match ev with SDel t e' _ => if decide (e' = e) then [t] else [] | _ => [] end))) by lia.
      apply IH. eauto.
    + intros Hle. destruct (decide (1 <= length (tr ≫= (fun ev => match ev with SDel t e' _ => if decide (e' = e) then [t] else [] | _ => [] end)))) as [Hl|Hl].
      * apply IH in Hl as (t & v & Hin). eauto.
      * destruct ev; cbn in Hle; try lia. case_decide; cbn in Hle; [subst; eauto|lia].
Qed.

Lemma taken_called h m : has_cb = true -> mrun m_init h m ->
  forall h1 x h2 k e, h = h1 ++ x :: h2 -> changes deref veq has_cb h1 x k (Some e) None ->
  exists t, by_ x = Some t /\ times_called_back (trace h) e <= 1 /\
    (is_Some (c_fr (m_cl m) !! t) /\ (forall y, SRet t y ∉ trace h2) \/
     exists v, SDel t e v ∈ trace h2 /\ has_value h e v /\ times_called_back (trace h) e = 1).
Proof.
  intros Hcb Hr h1 x h2 k e -> Hch. destruct (mrun_taken _ _ _ _ _ Hcb Hr _ _ _ _ _ eq_refl Hch) as (t & Hby & Hor).
  exists t. split; [done|]. destruct (mrun_count _ _ _ _ _ Hr e) as [Hle _]. split; [done|].
  destruct Hor as [[Hl Hn]|[v Hd]]; [left; split; [|done]; eapply leaving_busy; [by eapply mrun_linked|done]|].
  right. exists v. split; [done|].
  assert (Hin : SDel t e v ∈ trace (h1 ++ x :: h2)). { rewrite trace_app, trace_cons, !elem_of_app. by right; right. }
  destruct (mrun_called _ _ _ _ _ Hr _ _ _ Hin) as (_ & (t' & y & Hnew) & _). split; [by exists t', y|].
  assert (1 <= times_called_back (trace (h1 ++ x :: h2)) e) by (apply called_back_count; by exists t, v). lia.
Qed.

End facts.
