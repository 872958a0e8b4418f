(** Proofs about what happens before what in synccache. *)
From Coq Require Import ZifyBool ZifyNat.
From Verif Require Import Base RwMapModel RwMapSpec RwMapInv RwMapMoves RwMapProgress RwMapHbSpec RwMapHb
  SyncCacheModel SyncCacheSpec SyncCacheHist SyncCacheLink SyncCacheWorld SyncCacheRaceSpec.

Section race.
Context {K : Type} `{Countable K} {V : Type}.
Context (deref : nat -> nat) (veq : V -> V -> option bool) (has_cb : bool).
Local Notation wstep := (wstep deref veq has_cb).
Local Notation wrun := (wrun deref veq has_cb).
Local Notation whstep := (whstep deref veq has_cb).
Local Notation whrun := (whrun deref veq has_cb).
Local Notation mhact := (hact deref 0 (@peq)).
Implicit Types (h : whist K V) (g : hist K nat) (w : world K V) (c : scall K V) (p : spc K) (t u e : nat).

Definition ment p : option nat :=
  match p with
  | Q_put e | Q_chk _ e | Q_chk2 _ e | Q_cad _ e _ | Q_cadw _ e _ | Q_del _ e _ | Q_user _ e | Q_back _ e _
  | Q_ret (SEnt e _) => Some e
  | _ => None
  end.

Lemma ment_after_cad c k e x b e' : ment (after_cad c k e x b) = Some e' -> e' = e.
Proof. destruct c, b; cbn; try done; by intros [= ->]. Qed.
Lemma ment_after_del c k e x e' : ment (after_del c k e x) = Some e' -> e' = e.
Proof.
  destruct c; try (exact (ment_after_cad _ _ _ _ _ _)); cbn; try done. destruct x; cbn; [done|]. by intros [= ->].
Qed.
Lemma ment_del c k e x e' : ment (del has_cb c k e x) = Some e' -> e' = e.
Proof. unfold del. destruct has_cb; [by intros [= ->]|apply ment_after_del]. Qed.
Lemma ment_after_chk c k e v x e' : ment (after_chk veq has_cb c k e v x) = Some e' -> e' = e.
Proof.
  destruct c; cbn; try (destruct x; cbn; by intros [= ->]).
  - apply ment_del.
  - destruct x; cbn; [by intros [= ->]|]. destruct (veq _ _) as [[]|]; cbn; try done. by intros [= ->].
Qed.
Lemma ment_callback c k e e' : ment (callback c k e) = Some e' -> e' = e.
Proof. destruct c; cbn; by intros [= ->]. Qed.

(** What the goroutines know about the entries their code has in hand. *)
Definition fknow (fr : gmap nat (frame K V)) (thr : nat -> gset nat) : Prop :=
  forall t c now p e, fr !! t = Some (mk_frame c now p) -> ment p = Some e -> e ∈ thr t.
Lemma fknow_mono fr thr thr' : (forall t, thr t ⊆ thr' t) -> fknow fr thr -> fknow fr thr'.
Proof. intros Hs Hf t c now p e H1 H2. apply Hs. by eapply Hf. Qed.
Lemma fknow_insert fr thr t c now p : fknow fr thr -> (forall e, ment p = Some e -> e ∈ thr t) ->
  fknow (<[t := mk_frame c now p]> fr) thr.
Proof.
  intros Hf Hp t' c' now' p' e. rewrite lookup_insert_Some. intros [[<- [= <- <- <-]]|[_ Ht]]; [by apply Hp|by eapply Hf].
Qed.
Lemma fknow_delete fr thr t : fknow fr thr -> fknow (delete t fr) thr.
Proof. intros Hf t' c' now' p' e. rewrite lookup_delete_Some. intros [_ Ht]. by eapply Hf. Qed.

(** The history of the map that belongs to the execution. *)
Definition follows h g : Prop :=
  h_cf g = w_map (wh_w h) /\ RwMapHb.inv deref peq g /\
  (forall n v, n ∈ h_thr g v -> exists u mc, h_calls g !! n = Some (u, mc) /\
     forall q, call_ptr mc = Some q -> deref q ∈ wh_thr h (Nat.div2 v)) /\
  (forall n s, n ∈ h_ent g s -> exists u mc, h_calls g !! n = Some (u, mc) /\
     forall q, call_ptr mc = Some q -> deref q ∈ wh_slot h s).

Lemma learn_mono h x t : wh_thr h t ⊆ learn h x t.
Proof.
  assert (Hi : forall u s, wh_thr h u ⊆ s -> wh_thr h t ⊆ (<[u := s]> (wh_thr h)) t).
  { intros u s Hs. destruct (decide (u = t)) as [->|Hn]; [by rewrite fn_lookup_insert|by rewrite fn_lookup_insert_ne]. }
  unfold learn. destruct x as [[]| |[]]; try done.
  - destruct c; try done. apply Hi. set_solver.
  - destruct (f_pc <$> _) as [[]|]; try done. apply Hi. set_solver.
  - destruct (c_thr _ !! _) as [[? ?]|]; [|done]. apply Hi. set_solver.
Qed.

Lemma follows_knows h g u k e : follows h g -> knows deref (h_calls g) (h_thr g u) k e -> e ∈ wh_thr h (Nat.div2 u).
Proof.
  intros (_ & _ & Hk & _) (n & u' & c & q & H1 & _ & H3 & <- & H5). destruct (Hk _ _ H5) as (u2 & c2 & H6 & H7).
  simplify_eq. by apply H7.
Qed.

(** A step of the map. *)
Lemma map_follows h g a cf ev h1 : follows h g ->
  act deref 0 peq (w_map (wh_w h)) a = Some (cf, ev) ->
  (forall u mc, a = AInv u mc -> forall q, call_ptr mc = Some q -> deref q ∈ wh_thr h (Nat.div2 u)) ->
  w_map (wh_w h1) = cf -> wh_thr h1 = learn h (XMap a) -> wh_slot h1 = publish h (XMap a) ->
  exists g1, mhact g a = Some (g1, ev) /\ follows h1 g1.
Proof.
  intros (Hcf & Hi & Ht & Hs) Ha Hinv Hw H1 H2.
  assert (exists g1, mhact g a = Some (g1, ev)) as [g1 Hg].
  { unfold hact. rewrite Hcf, Ha. destruct a as [u mc|u lab]; [eauto|].
    destruct (c_thr (w_map (wh_w h)) !! u) as [[mc q]|] eqn:Eu; [eauto|]. cbn in Ha. by rewrite Eu in Ha. }
  exists g1. split; [done|]. pose proof (RwMapHb.hact_inv _ _ _ _ _ _ _ Hi Hg) as Hi1.
  split; [|split; [done|]].
  { unfold hact in Hg. rewrite Hcf, Ha in Hg. destruct a; [by injection Hg as <-|].
    destruct (c_thr _ !! _) as [[mc q]|]; [|done]. by injection Hg as <-. }
  rewrite H1, H2. unfold hact in Hg. rewrite Hcf, Ha in Hg.
  destruct a as [u mc|u lab].
  - injection Hg as <-. cbn [h_calls h_thr h_ent learn publish].
    assert (Hold : forall n (S' : gset nat), (exists u mc, h_calls g !! n = Some (u, mc) /\ forall q, call_ptr mc = Some q -> deref q ∈ S') ->
      exists u' mc', (h_calls g ++ [(u, mc)]) !! n = Some (u', mc') /\ forall q, call_ptr mc' = Some q -> deref q ∈ S').
    { intros n S' (u' & mc' & Hn & Hq). exists u', mc'. split; [by apply lookup_app_l_Some|done]. }
    split; [|intros n s Hn; apply Hold; by apply Hs].
    intros n v. destruct (decide (v = u)) as [->|Hv].
    + rewrite fn_lookup_insert, elem_of_union. intros [Hn|Hn]; [|apply Hold; by apply Ht].
      apply elem_of_singleton in Hn as ->. exists u, mc. split; [|by eapply Hinv].
      rewrite lookup_app_r by done. by rewrite Nat.sub_diag.
    + rewrite fn_lookup_insert_ne by done. intros Hn. apply Hold. by apply Ht.
  - destruct (c_thr (w_map (wh_w h)) !! u) as [[mc q]|] eqn:Eu; [|done]. injection Hg as <-.
    cbn [h_calls h_thr h_ent]. unfold publish, learn. rewrite Eu.
    set (kg := h_thr g u ∪ match observes q with Some e => h_ent g e | None => ∅ end).
    set (kh := wh_thr h (Nat.div2 u) ∪ match observes q with Some e => wh_slot h e | None => ∅ end).
    assert (Hk : forall n, n ∈ kg -> exists u' mc', h_calls g !! n = Some (u', mc') /\
       forall q, call_ptr mc' = Some q -> deref q ∈ kh).
    { intros n. unfold kg. rewrite elem_of_union. intros [Hn|Hn].
      - destruct (Ht _ _ Hn) as (u' & mc' & H3 & H4). exists u', mc'. split; [done|]. intros q' Hq'.
        apply elem_of_union_l. by apply H4.
      - unfold kh. destruct (observes q) as [s|]; [|by apply elem_of_empty in Hn].
        destruct (Hs _ _ Hn) as (u' & mc' & H3 & H4). exists u', mc'. split; [done|]. intros q' Hq'.
        apply elem_of_union_r. by apply H4. }
    split.
    + intros n v. destruct (decide (v = u)) as [->|Hv].
      * rewrite !fn_lookup_insert. apply Hk.
      * rewrite fn_lookup_insert_ne by done. intros Hn. destruct (Ht _ _ Hn) as (u' & mc' & H3 & H4).
        exists u', mc'. split; [done|]. intros q' Hq'. specialize (H4 _ Hq').
        destruct (decide (Nat.div2 v = Nat.div2 u)) as [He|He].
        -- rewrite He, fn_lookup_insert. apply elem_of_union_l. by rewrite <- He.
        -- by rewrite fn_lookup_insert_ne.
    + destruct (writes q _) as [s0|]; [|apply Hs]. intros n s.
      destruct (decide (s = s0)) as [->|Hn0].
      * rewrite !fn_lookup_insert. apply Hk.
      * rewrite !fn_lookup_insert_ne by done. apply Hs.
Qed.

(** Another action leaves the map alone. *)
Lemma loc_follows h g h1 : follows h g -> w_map (wh_w h1) = w_map (wh_w h) ->
  (forall t, wh_thr h t ⊆ wh_thr h1 t) -> wh_slot h1 = wh_slot h -> follows h1 g.
Proof.
  intros (Hcf & Hi & Ht & Hs) Hw Hl Hp. split; [congruence|]. split; [done|]. rewrite Hp. split; [|done].
  intros n v Hn. destruct (Ht _ _ Hn) as (u & mc & H1 & H2). exists u, mc. split; [done|]. intros q Hq. apply Hl. by apply H2.
Qed.

(** The code of the cache. *)
Lemma loc_fknow h a s ev : fknow (c_fr (w_cl (wh_w h))) (wh_thr h) ->
  cl_loc veq has_cb (w_cl (wh_w h)) a = Some (s, ev) ->
  (forall t k e, a = KBeg t k e -> e ∈ wh_thr h t) ->
  fknow (c_fr s) (learn h (XLoc a)).
Proof.
  intros Hf Ha Hb. pose proof (fknow_mono _ _ _ (learn_mono h (XLoc a)) Hf) as Hf'.
  destruct a as [t c|t l|t k e|e at_|e d]; cbn [cl_loc] in Ha.
  - destruct (c_fr _ !! t); [done|]. injection Ha as <- <-. apply fknow_insert; [done|].
    intros e. destruct c; cbn [start ment]; try done. intros [= ->]. cbn [learn]. rewrite fn_lookup_insert. set_solver.
  - destruct (c_fr (w_cl (wh_w h)) !! t) as [[c now p]|] eqn:Et; [|done].
    assert (Hm : forall e, ment p = Some e -> e ∈ learn h (XLoc (KLoc t l)) t).
    { intros e He. eapply Hf'; [exact Et|done]. }
    destruct p, l; try done.
    + destruct c; try done; injection Ha as <- <-; (apply fknow_insert; [done|]); intros e [= <-];
        cbn [learn]; rewrite Et; cbn [fmap option_fmap option_map f_pc]; rewrite fn_lookup_insert; set_solver.
    + injection Ha as <- <-. by apply fknow_insert.
    + injection Ha as <- <-. apply fknow_insert; [done|]. intros e' [= <-]. by apply Hm.
    + destruct (c_ent _ !! e) as [[v x]|]; [|done]. injection Ha as <- <-. apply fknow_insert; [done|].
      intros e' ->%ment_after_chk. by apply Hm.
    + destruct (c_ent _ !! e) as [[v y]|]; [|done]. injection Ha as <- <-. apply fknow_insert; [done|].
      intros e' ->%ment_after_del. by apply Hm.
    + injection Ha as <- <-. apply fknow_insert; [done|]. intros e' [= <-]. by apply Hm.
    + injection Ha as <- <-. by apply fknow_delete.
  - destruct (c_fr (w_cl (wh_w h)) !! t) as [[c now p]|] eqn:Et; [|done]. destruct p; try done.
    destruct (ranging has_cb c); [|done]. injection Ha as <- <-. apply fknow_insert; [done|].
    intros e' ->%ment_callback. by eapply learn_mono, Hb.
  - destruct (c_ent _ !! e) as [[v x]|]; [|done]. by injection Ha as <- <-.
  - destruct (c_ent _ !! e) as [[v x]|]; [|done]. by injection Ha as <- <-.
Qed.

Definition hinv h : Prop := fknow (c_fr (w_cl (wh_w h))) (wh_thr h) /\ exists g, follows h g.

Lemma ret_val (mc : call K nat) (r : result nat) e : ret_of mc r = RVal (Some e) -> r = RVal (Some e).
Proof. destruct mc, r; cbn; congruence. Qed.
Lemma ret_los (mc : call K nat) (r : result nat) e b : ret_of mc r = RLos e b -> r = RLos e b.
Proof. destruct mc, r; cbn; congruence. Qed.

Lemma hinv_step xs h x h1 tr ev : Inhabited K -> wrun w_init xs = Some (wh_w h, tr) ->
  hinv h -> whstep h x = Some (h1, ev) -> hinv h1.
Proof.
  intros HK Hr [Hf [g Hg]] Hs. unfold SyncCacheRaceSpec.whstep in Hs.
  destruct (wstep (wh_w h) x) as [[w ev']|] eqn:Hx; [|done]. injection Hs as <- <-.
  pose proof (fknow_mono _ _ _ (learn_mono h x) Hf) as Hf'.
  destruct x as [a|t|a]; cbn [SyncCacheModel.wstep] in Hx.
  - assert (exists s, cl_loc veq has_cb (w_cl (wh_w h)) a = Some (s, ev') /\ w = mk_world s (w_map (wh_w h)) /\ forall t k e, a <> KBeg t k e) as (s & Ha & -> & Hn).
    { destruct a; try done;
      (match type of Hx with match ?e with _ => _ end = _ => destruct e as [[s ev1]|] eqn:Hl; [|done] end);
        injection Hx as <- <-; by exists s. }
    split.
    + cbn [wh_w wh_thr w_cl]. eapply loc_fknow; [done|done|]. intros t k e He. by destruct (Hn t k e).
    + exists g. by eapply loc_follows; [exact Hg|done|apply learn_mono|].
  - destruct (c_thr (w_map (wh_w h)) !! _) as [[mc q]|] eqn:Ht; [|done]. destruct q; try done.
    destruct (cl_loc veq has_cb (w_cl (wh_w h)) (KBeg t k v)) as [[s ev1]|] eqn:Ha; [|done]. injection Hx as <- <-.
    split; [|exists g; by eapply loc_follows; [exact Hg|done|apply learn_mono|]].
    cbn [wh_w wh_thr w_cl]. change (learn h (XBeg t)) with (learn h (XLoc (KBeg t k v))).
    eapply loc_fknow; [done|done|]. intros ? ? ? [= <- <- <-].
    pose proof Hg as (Hcf & (kof & _ & _ & _ & Hpo) & _). rewrite <- Hcf in Ht. apply Hpo in Ht as [_ [Hkn _]].
    rewrite <- (tid_div2 t false). by eapply follows_knows.
  - destruct (act deref 0 peq (w_map (wh_w h)) a) as [[cf evs]|] eqn:Ha; [|done].
    assert (Hw : w_map w = cf).
    { destruct evs; [by injection Hx as <- _|]. destruct (cl_map _ _ _ _); [|done]. by injection Hx as <- _. }
    assert (Hinv : forall u mc, a = AInv u mc -> forall q, call_ptr mc = Some q -> deref q ∈ wh_thr h (Nat.div2 u)).
    { intros u mc -> q Hq. cbn [act] in Ha. destruct (c_thr _ !! u); [done|]. injection Ha as <- <-. cbn [cl_map] in Hx.
      destruct (c_fr (w_cl (wh_w h)) !! Nat.div2 u) as [[c now p]|] eqn:Eu; [|done].
      destruct (calls_map deref has_cb c p mc) eqn:Ec; [|done].
      eapply Hf; [exact Eu|]. destruct p, c, mc; cbn in Ec, Hq |- *; try done;
        apply bool_decide_eq_true in Ec as [_ <-]; by injection Hq as ->. }
    destruct (map_follows h g a cf evs (mk_whist w (learn h (XMap a)) (publish h (XMap a))) Hg Ha Hinv Hw eq_refl eq_refl) as (g1 & Hg1 & Hfol).
    split; [|by exists g1]. cbn [wh_w wh_thr].
    destruct evs as [|e evs].
    { by injection Hx as <- <-. }
    destruct (cl_map deref has_cb (w_cl (wh_w h)) e) as [s|] eqn:Hc; [|done]. injection Hx as <- <-. cbn [w_cl].
    destruct e as [u mc|u r|u k v b]; cbn [cl_map] in Hc.
    + destruct (c_fr (w_cl (wh_w h)) !! Nat.div2 u) as [[c now p]|] eqn:Eu; [|done].
      destruct (_ && _); [|done]. injection Hc as <-. apply fknow_insert; [done|]. intros e He. eapply Hf'; [exact Eu|].
      by destruct p.
    + destruct (c_fr (w_cl (wh_w h)) !! Nat.div2 u) as [[c now p]|] eqn:Eu; [|done].
      case_bool_decide as Hu; [|done]. destruct (after_ret has_cb c p r) as [p'|] eqn:Er; [|done]. injection Hc as <-.
      apply fknow_insert; [done|]. intros e He.
      destruct a as [u0 mc0|u0 lab].
      { cbn [act] in Ha. destruct (c_thr _ !! u0); [done|]. congruence. }
      assert (exists mc q, c_thr (w_map (wh_w h)) !! u0 = Some (mc, q)) as (mc & q & Eq).
      { cbn [act] in Ha. destruct (c_thr _ !! u0) as [[mc q]|]; [eauto|done]. }
      pose proof Hg as (Hcf & Hi & _).
      destruct (RwMapHb.hact_shows deref 0 peq g u0 lab g1 (ERet u r :: evs) mc q Hi Hg1 ltac:(by rewrite Hcf)) as [Hsh _].
      destruct (Hsh u r ltac:(left)) as (-> & r' & -> & Hrok).
      assert (Hkn : forall k, knows deref (h_calls g1) (h_thr g1 u0) k e -> e ∈ learn h (XMap (AStep u0 lab)) (Nat.div2 u0)).
      { intros k Hk. exact (follows_knows _ _ _ _ _ Hfol Hk). }
      destruct p; try (by destruct c).
      * assert (Hval : ret_of mc r' = RVal (Some e) -> e ∈ learn h (XMap (AStep u0 lab)) (Nat.div2 u0)).
        { intros ->%ret_val. destruct Hrok as (k0 & _ & Hk). by eapply Hkn. }
        destruct c, (ret_of mc r') as [[v0|]|v0 b| | | |] eqn:Eret; try done; injection Er as <-; try done.
        -- injection He as ->. by apply Hval.
        -- apply ret_los in Eret as Hr'. destruct b; injection He as ->.
           { subst r'. destruct Hrok as (k0 & _ & Hk). by eapply Hkn. }
           (* its own entry *)
           pose proof (wrun_winv _ _ _ _ _ _ HK Hr) as Hwi. cbn [inner] in Hu.
           rewrite Hu in Eq. destruct (link_at _ _ _ _ _ _ _ _ (wi_link _ _ _ _ _ Hwi) Eq) as (c1 & now1 & p1 & Hf1 & _ & Hmc).
           rewrite Eu in Hf1. injection Hf1 as <- <- <-. destruct Hmc as [q0 ->]. rewrite <- Hu in Eq.
           cbn [act] in Ha. rewrite Eq in Ha.
           destruct (step deref 0 peq u0 _ q _ lab) as [[[o sh'] evs']|] eqn:Hst; [|done].
           assert (evs' = ERet u0 (RLos e false) :: evs) as -> by (by destruct o; injection Ha as _ ->).
           apply step_events in Hst. assert (exists r0, q = X_ret r0 /\ ret_of (CLoadOrStore k q0) r0 = RLos e false) as (r0 & -> & Hr0).
           { destruct q; try (destruct Hst as [? _]; done).
             - destruct Hst as (? & _ & ? & _). done.
             - destruct Hst as (_ & _ & [= Hx1 Hx2]). eauto. }
           destruct (wrun_map_run _ _ _ _ _ _ _ Hr) as [mtr Hrun].
           pose proof (good_shaped deref peq _ _ _ _ _ _ (run_reach deref 0 peq _ _ _ HK Hrun) Eq ltac:(done)) as [m Hsh'].
           rewrite Hr0 in Hsh'. cbn in Hsh'.
           assert (e = deref q0) as -> by (destruct (m !! k); by injection Hsh').
           destruct Hi as (kof & _ & _ & _ & Hpo). rewrite <- Hcf in Eq. destruct (Hpo _ _ _ Eq) as [(n & Hn & Hin) _].
           destruct Hg as (_ & _ & Ht & _). destruct (Ht _ _ Hin) as (u2 & mc2 & Hn2 & Hq2). rewrite Hn in Hn2.
           injection Hn2 as <- <-. apply learn_mono. by apply Hq2.
        -- apply ment_del in He as ->. by apply Hval.
        -- injection He as ->. by apply Hval.
        -- injection He as ->. by apply Hval.
      * assert (e = e0) as ->; [|eapply Hf'; [exact Eu|done]].
        destruct (ret_of mc r') as [| |[]| | |]; try done; [destruct has_cb|]; injection Er as <-; [by injection He| |]; by apply ment_after_cad in He.
    + destruct (c_fr (w_cl (wh_w h)) !! Nat.div2 u) as [[c now p]|] eqn:Eu; [|done]. destruct p; try done.
      case_bool_decide; [|done]. injection Hc as <-. by apply fknow_insert.
Qed.

Lemma whrun_snoc h xs x h2 tr : whrun h (xs ++ [x]) = Some (h2, tr) ->
  exists h1 tr1 ev, whrun h xs = Some (h1, tr1) /\ whstep h1 x = Some (h2, ev) /\ tr = tr1 ++ ev.
Proof.
  revert h tr. induction xs as [|y xs IH]; intros h tr; cbn [app SyncCacheRaceSpec.whrun].
  - destruct (whstep h x) as [[h1 ev]|] eqn:Hx; [|done]. intros [= <- <-]. exists h, [], ev. by rewrite app_nil_r.
  - destruct (whstep h y) as [[h1 ev]|]; [|done].
    destruct (whrun h1 (xs ++ [x])) as [[h3 evs]|] eqn:Hr; [|done]. intros [= <- <-].
    destruct (IH _ _ Hr) as (h4 & tr4 & ev4 & -> & H2 & ->). exists h4, (ev ++ tr4), ev4. by rewrite app_assoc.
Qed.

Lemma whrun_wrun xs h h2 tr : whrun h xs = Some (h2, tr) -> wrun (wh_w h) xs = Some (wh_w h2, tr).
Proof.
  revert h tr. induction xs as [|y xs IH]; intros h tr; cbn [SyncCacheRaceSpec.whrun SyncCacheModel.wrun].
  - by intros [= <- <-].
  - unfold SyncCacheRaceSpec.whstep. destruct (wstep (wh_w h) y) as [[w ev]|]; [|done].
    destruct (whrun _ xs) as [[h3 evs]|] eqn:Hr; [|done]. intros [= <- <-]. apply IH in Hr. cbn [wh_w] in Hr. by rewrite Hr.
Qed.
Lemma wrun_whrun xs h w tr : wrun (wh_w h) xs = Some (w, tr) -> exists h2, whrun h xs = Some (h2, tr) /\ wh_w h2 = w.
Proof.
  revert h tr. induction xs as [|y xs IH]; intros h tr; cbn [SyncCacheRaceSpec.whrun SyncCacheModel.wrun].
  - intros [= <- <-]. eauto.
  - unfold SyncCacheRaceSpec.whstep. destruct (wstep (wh_w h) y) as [[w1 ev]|]; [|done].
    destruct (wrun w1 xs) as [[w2 evs]|] eqn:Hr; [|done]. intros [= <- <-].
    destruct (IH (mk_whist w1 (learn h y) (publish h y)) evs Hr) as (h2 & -> & <-). eauto.
Qed.

Lemma whrun_hinv xs h tr : Inhabited K -> whrun new_whist xs = Some (h, tr) -> hinv h.
Proof.
  intros HK. revert h tr. induction xs as [|x xs IH] using rev_ind; intros h tr.
  - intros [= <- <-]. split.
    + intros t c now p e Ht. cbn in Ht. by rewrite lookup_empty in Ht.
    + exists new_hist. split; [done|]. split; [exact (RwMapHb.new_inv deref peq)|].
      split; intros n v Hn; cbn in Hn; by apply elem_of_empty in Hn.
  - intros (h1 & tr1 & ev & Hr & Hs & ->)%whrun_snoc. eapply hinv_step; [done| |by eapply IH|done].
    exact (whrun_wrun _ _ _ _ Hr).
Qed.

(** The fields of entries. *)
Definition below (s : cstate K V) : Prop := forall e, is_Some (c_ent s !! e) -> e < c_new s.
Definition keeps (s s' : cstate K V) (touched : nat -> Prop) : Prop :=
  forall e v x, c_ent s !! e = Some (v, x) -> exists x', c_ent s' !! e = Some (v, x') /\ (x' = x \/ touched e).
Definition sets (a : sact K V) e : Prop := (exists at_, a = KSet e at_) \/ exists d, a = KAdd e d.
Lemma fields_same s s' P : below s -> c_ent s' = c_ent s -> c_new s' = c_new s -> below s' /\ keeps s s' P.
Proof. intros Hb H1 H2. unfold below, keeps. rewrite H1, H2. split; [done|eauto]. Qed.
Lemma fields_put s e v x x' fr : below s -> c_ent s !! e = Some (v, x) ->
  let s' := mk_cstate (<[e := (v, x')]> (c_ent s)) (c_new s) fr in below s' /\ keeps s s' (fun d => d = e).
Proof.
  intros Hb He. split.
  - intros e'. cbn [c_ent c_new]. destruct (decide (e' = e)) as [->|Hn]; [intros _; apply Hb; eauto|].
    rewrite lookup_insert_ne by done. apply Hb.
  - intros e' v' y. cbn [c_ent]. destruct (decide (e' = e)) as [->|Hn]; [|rewrite lookup_insert_ne by done; eauto].
    rewrite He, lookup_insert. intros [= <- <-]. eauto.
Qed.
Lemma fields_loc s a s' ev : below s -> cl_loc veq has_cb s a = Some (s', ev) -> below s' /\ keeps s s' (sets a).
Proof.
  intros Hb Ha.
  destruct a as [t c|t l|t k e|e at_|e d]; cbn [cl_loc] in Ha.
  - destruct (c_fr _ !! t); [done|]. injection Ha as <- <-. by apply fields_same.
  - destruct (c_fr s !! t) as [[c now p]|] eqn:Et; [|done].
    destruct p, l; try done; try (injection Ha as <- <-; by apply fields_same);
      try (destruct (c_ent s !! e) as [[v y]|]; [|done]; injection Ha as <- <-; by apply fields_same).
    assert (Hnew : forall y fr, let s2 := mk_cstate (<[c_new s := y]> (c_ent s)) (S (c_new s)) fr in below s2 /\ keeps s s2 (sets (KLoc t (LClock now0)))).
    { intros y fr. split.
      - intros e'. cbn [c_ent c_new]. destruct (decide (e' = c_new s)) as [->|Hn]; [lia|].
        rewrite lookup_insert_ne by done. intros He. apply Hb in He. lia.
      - intros e' v' z He. cbn [c_ent]. rewrite lookup_insert_ne; [eauto|]. intros <-.
        assert (is_Some (c_ent s !! c_new s)) as Hs by eauto. apply Hb in Hs. lia. }
    destruct c; try done; injection Ha as <- <-; apply Hnew.
  - destruct (c_fr s !! t) as [[c now p]|] eqn:Et; [|done]. destruct p; try done.
    destruct (ranging has_cb c); [|done]. injection Ha as <- <-. by apply fields_same.
  - destruct (c_ent s !! e) as [[v x]|] eqn:Ee; [|done]. injection Ha as <- <-.
    destruct (fields_put s e v x (ms at_) (c_fr s) Hb Ee) as [H1 H2]. split; [done|].
    intros e' v' y Hy. destruct (H2 _ _ _ Hy) as (x' & Hx & [?| ->]); [eauto|]. exists x'. split; [done|]. right. left. eauto.
  - destruct (c_ent s !! e) as [[v x]|] eqn:Ee; [|done]. injection Ha as <- <-.
    destruct (fields_put s e v x (x + Z.quot d 1000000)%Z (c_fr s) Hb Ee) as [H1 H2]. split; [done|].
    intros e' v' y Hy. destruct (H2 _ _ _ Hy) as (x' & Hx & [?| ->]); [eauto|]. exists x'. split; [done|]. right. right. eauto.
Qed.
Lemma cl_map_ent (s : cstate K V) ev s' : cl_map deref has_cb s ev = Some s' -> c_ent s' = c_ent s /\ c_new s' = c_new s.
Proof. unfold cl_map. intros Hc. repeat case_match; try done; by injection Hc as <-. Qed.
Lemma fields_step w x w' ev : below (w_cl w) -> wstep w x = Some (w', ev) ->
  below (w_cl w') /\ keeps (w_cl w) (w_cl w') (fun e => exists a, x = XLoc a /\ sets a e).
Proof.
  intros Hb Hs. destruct x as [a|t|a]; cbn [SyncCacheModel.wstep] in Hs.
  - assert (exists s, cl_loc veq has_cb (w_cl w) a = Some (s, ev) /\ w' = mk_world s (w_map w)) as (s & Ha & ->).
    { destruct a; try done;
      (match type of Hs with match ?e with _ => _ end = _ => destruct e as [[s ev1]|] eqn:Hl; [|done] end);
        injection Hs as <- <-; by exists s. }
    destruct (fields_loc _ _ _ _ Hb Ha) as [H1 H2]. split; [done|].
    intros e v y He. destruct (H2 _ _ _ He) as (x' & Hx & [?|?]); eauto 10.
  - destruct (c_thr (w_map w) !! _) as [[mc q]|] eqn:Ht; [|done]. destruct q; try done.
    destruct (cl_loc veq has_cb (w_cl w) (KBeg t k v)) as [[s ev1]|] eqn:Ha; [|done]. injection Hs as <- <-.
    destruct (fields_loc _ _ _ _ Hb Ha) as [H1 H2]. split; [done|].
    intros e v' y He. destruct (H2 _ _ _ He) as (x' & Hx & [?|Hset]); [eauto|]. by destruct Hset as [[? ?]|[? ?]].
  - destruct (act deref 0 peq (w_map w) a) as [[cf evs]|] eqn:Ha; [|done].
    destruct evs as [|e evs]; [injection Hs as <- <-; by apply fields_same|].
    destruct (cl_map deref has_cb (w_cl w) e) as [s|] eqn:Hc; [|done]. injection Hs as <- <-.
    apply cl_map_ent in Hc as [H1 H2]. by apply fields_same.
Qed.
Lemma wrun_below xs w tr : wrun w_init xs = Some (w, tr) -> below (w_cl w).
Proof.
  revert w tr. induction xs as [|x xs IH] using rev_ind; intros w tr.
  - intros [= <- <-] e He. cbn in He. rewrite lookup_empty in He. by destruct He.
  - intros (w1 & tr1 & ev & Hr1 & Hs & _)%wrun_snoc. by destruct (fields_step _ _ _ _ (IH _ _ Hr1) Hs).
Qed.

(** Who is in Clear of the map. *)
Lemma clear_frame xs w tr t b mc : Inhabited K -> wrun w_init xs = Some (w, tr) ->
  c_thr (w_map w) !! tid t b = Some (mc, P_clr2) ->
  has_cb = false /\ exists now, c_fr (w_cl w) !! t = Some (mk_frame SClear now Q_wait).
Proof.
  intros HK Hr Ht. destruct (wrun_map_run _ _ _ _ _ _ _ Hr) as [mtr Hrun].
  destruct (run_reach deref 0 peq _ _ _ HK Hrun) as (h & kof & m & Hc & _).
  pose proof (i_pc _ _ _ _ _ _ _ Hc _ _ _ Ht) as Hp. cbn in Hp. subst mc.
  pose proof (wrun_winv _ _ _ _ _ _ HK Hr) as Hwi.
  destruct (link_at _ _ _ _ _ _ _ _ (wi_link _ _ _ _ _ Hwi) Ht) as (c1 & now1 & p1 & Hf1 & _ & Hmc).
  unfold mcall_ok in Hmc. destruct b; [by destruct p1|]. destruct (ranging has_cb c1) eqn:Hrg; [done|].
  destruct p1, c1; try done; try (by destruct Hmc). cbn in Hrg. eauto.
Qed.
End race.
