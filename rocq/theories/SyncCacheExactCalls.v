(** synccache: what each call does, from its places one by one. *)
From Coq Require Import ZifyBool ZifyNat.
From Verif Require Import Base RwMapModel RwMapSpec SyncCacheModel SyncCacheSpec SyncCacheHist SyncCacheLink SyncCacheExactSpec SyncCacheExact.

Section calls.
Context {K : Type} `{Countable K} {V : Type}.
Context (deref : nat -> nat) (veq : V -> V -> option bool) (has_cb : bool).
Local Notation scall := (scall K V).
Local Notation spc := (spc K).
Local Notation sev := (sev K V).
Local Notation mcall := (call K nat).
Local Notation after_chk := (after_chk veq has_cb).
Local Notation ranging := (ranging has_cb).
Local Notation cache := (cache K V).
Local Notation effect := (effect veq has_cb).
Local Notation deletes := (deletes has_cb).
Local Notation ranges := (ranges has_cb).
Local Notation trims := (trims has_cb).
Local Notation mev := (mev K V).
Local Notation mstate := (mstate K V).
Local Notation mrun := (mrun deref veq has_cb).
Local Notation idle := (idle deref has_cb).
Local Notation behaves := (behaves veq has_cb).
Local Notation big := (big deref veq has_cb).

Implicit Types (h : list mev) (m : mstate) (td : gmap K nat) (c : scall) (p : spc) (mc : mcall) (t u e : nat) (k : K) (s : cache)
  (seg : list sev) (r : sres).
Lemma big_ret t c s now td r0 seg r s' : big t c s now td (Q_ret r0) seg r s' -> seg = [] /\ r = r0 /\ s' = s.
Proof. by inversion 1; subst. Qed.
Lemma big_chk t c s now td k e seg r s' : big t c s now td (Q_chk k e) seg r s' ->
  exists n v x seg1, x_ent s !! e = Some (v, x) /\ seg = checks t e n x ++ seg1 /\
    big t c s (ms n) td (after_chk c k e v (Z.ltb x (ms n))) seg1 r s'.
Proof.
  inversion 1 as [| | |? ? ? ? ? n ? ? ? Hb| | | |? ? ? ? ? ? ? ? ? Hc| | | |]; subst; [|done].
  inversion Hb as [| | | |? ? ? ? ? v x ? ? ? He Hb2| | |? ? ? ? ? ? ? ? ? Hc| | | |]; subst; [|done].
  by exists n, v, x, seg.
Qed.
Lemma big_chk2 t c s now td k e seg r s' : big t c s now td (Q_chk2 k e) seg r s' ->
  exists v x seg1, x_ent s !! e = Some (v, x) /\ seg = SChk t e now x :: seg1 /\
    big t c s now td (after_chk c k e v (Z.ltb x now)) seg1 r s'.
Proof.
  inversion 1 as [| | | |? ? ? ? ? v x ? ? ? He Hb2| | |? ? ? ? ? ? ? ? ? Hc| | | |]; subst; [|done].
  by eexists v, x, _.
Qed.
Lemma big_del t c s now td k e x seg r s' : big t c s now td (del has_cb c k e x) seg r s' ->
  (forall v y, x_ent s !! e = Some (v, y) -> exists seg1, seg = deletes t e v ++ seg1 /\
    big t c s now td (after_del c k e x) seg1 r s') /\ (has_cb = true -> is_Some (x_ent s !! e)).
Proof.
  unfold del, SyncCacheExactSpec.deletes. destruct has_cb; [|intros Hb; split; [by eauto|done]].
  inversion 1 as [| | | | |? ? ? ? ? ? v y ? ? ? He Hb| |? ? ? ? ? ? ? ? ? Hc| | | |]; subst; [|done].
  split; [|by eauto]. intros v' y' He'. rewrite He in He'. simplify_eq. eauto.
Qed.
Lemma big_cad t c s now td k e x seg r s' : big t c s now td (Q_cad k e x) seg r s' ->
  if decide (x_map s !! k = Some e)
  then big t c (forget k s) now td (if has_cb then Q_del k e x else after_cad c k e x true) seg r s'
  else big t c s now td (after_cad c k e x false) seg r s'.
Proof.
  inversion 1 as [| | | | | | |? ? ? ? mc p' ? ? ? Hc _ Ha Hb| | | |]; subst.
  assert (mc = CCad k e) as ->. { clear -Hc. destruct c, mc; try done; cbn in Hc; apply bool_decide_eq_true in Hc; by destruct Hc as [-> ->]. }
  cbn [inside] in Ha. apply after_ret_cad in Ha as (b & Hr & ->). cbn in Hr, Hb.
  destruct (x_map s !! k) as [e'|] eqn:Ek; cbn in Hr, Hb.
  - unfold peq in *. case_bool_decide as He.
    + subst e'. rewrite decide_True by done. injection Hr as <-. done.
    + rewrite decide_False by congruence. injection Hr as <-. by destruct s.
  - rewrite decide_False by done. injection Hr as <-. by destruct s.
Qed.
(** With the entry there. *)
Lemma big_take t c s now td k e x v y seg r s' : big t c s now td (Q_cad k e x) seg r s' ->
  x_map s !! k = Some e -> x_ent s !! e = Some (v, y) ->
  (match c with SDelete _ | SLoadAndDelete _ => False | _ => True end) ->
  exists seg1, seg = deletes t e v ++ seg1 /\ big t c (forget k s) now td (after_cad c k e x true) seg1 r s'.
Proof.
  intros Hb Hk He Hc. apply big_cad in Hb. rewrite decide_True in Hb by done.
  assert (Hd : after_del c k e x = after_cad c k e x true) by by destruct c. rewrite <- Hd in Hb |- *.
  change (big t c (forget k s) now td (del has_cb c k e x) seg r s') in Hb.
  apply big_del in Hb as [Hb _]. by eapply Hb.
Qed.
Lemma big_get t c s now td seg r s' : big t c s now td Q_get seg r s' ->
  match c with
  | SLoad k | SCvad k _ =>
      big t c s now td (match x_map s !! k with Some e => Q_chk k e | None => Q_ret (match c with SLoad _ => SNone | _ => SBool false end) end) seg r s'
  | SDelete k =>
      big t c (forget k s) now td (match x_map s !! k with Some e => del has_cb c k e false | None => Q_ret SUnit end) seg r s'
  | SLoadAndDelete k =>
      big t c (forget k s) now td (match x_map s !! k with Some e => Q_chk k e | None => Q_ret SNone end) seg r s'
  | SClear => if has_cb then big t c s now (x_map s) Q_wait seg r s' else seg = [] /\ r = SUnit /\ s' = mk_cache ∅ (x_ent s)
  | SRange | STrim => big t c s now (x_map s) Q_wait seg r s'
  | _ => False
  end.
Proof.
  inversion 1 as [| | | | | | |? ? ? ? mc p' ? ? ? Hc Hat Ha Hb|? ? ? ? ? ? Hr Hb| | |]; subst.
  - destruct c, mc; try done; cbn in Hc; try case_bool_decide as Hk; try done; subst; cbn in Ha; injection Ha as <-;
      try (by destruct s).
    apply big_ret in Hb as (-> & -> & ->). destruct has_cb; done.
  - destruct c; try done. cbn in Hr. rewrite Hr in Hb |- *. done.
Qed.
Lemma big_new t c s now td seg r s' : big t c s now td Q_new seg r s' ->
  exists k v d n e seg1, (c = SStore k v d \/ c = SLoadOrStore k v d) /\ x_ent s !! e = None /\
    seg = makes t e v n d ++ seg1 /\ big t c (make e v (ms (n + d)) s) now td (Q_put e) seg1 r s'.
Proof.
  inversion 1 as [|? ? ? k v d n e ? ? ? Hc He Hb| | | | | |? ? ? ? mc p' ? ? ? Hc Hat Ha Hb| | | |]; subst; [|by destruct c].
  by eexists k, v, d, n, e, _.
Qed.
Lemma big_put t c s now td e seg r s' : big t c s now td (Q_put e) seg r s' ->
  match c with
  | SStore k _ _ => seg = [] /\ r = SUnit /\ s' = enter k e s
  | SLoadOrStore k _ _ =>
      match x_map s !! k with
      | Some e0 => big t c s now td (Q_chk k e0) seg r s'
      | None => seg = [] /\ r = SEnt e false /\ s' = enter k e s
      end
  | _ => False
  end.
Proof.
  inversion 1 as [| | | | | | |? ? ? ? mc p' ? ? ? Hc Hat Ha Hb| | | |]; subst.
  destruct c, mc; try done; cbn in Hc; apply bool_decide_eq_true in Hc; destruct Hc as [-> <-]; cbn in Ha.
  - injection Ha as <-. by apply big_ret in Hb.
  - cbn in Hb. destruct (x_map s !! k) as [e0|] eqn:Ek; injection Ha as <-; [by destruct s|by apply big_ret in Hb].
Qed.
Lemma big_back t c s now td k e b seg r s' : big t c s now td (Q_back k e b) seg r s' ->
  td !! k = Some e /\ big t c s now (if b then delete k td else ∅) Q_wait seg r s'.
Proof.
  by inversion 1 as [| | | | | | |? ? ? ? mc p' ? ? ? Hc Hat Ha Hb| | | |]; subst; [destruct c|].
Qed.
Lemma big_user t c s now td k e seg r s' : big t c s now td (Q_user k e) seg r s' ->
  exists b seg1, seg = SUse t k e b :: seg1 /\ big t c s now td (Q_back k e b) seg1 r s'.
Proof.
  inversion 1 as [| | | | | |? ? ? ? ? b ? ? ? Hb|? ? ? ? mc p' ? ? ? Hc Hat Ha Hb| | | |]; subst; [by eauto|by destruct c].
Qed.
Lemma big_wait t c s now td seg r s' : ranging c = true -> big t c s now td Q_wait seg r s' ->
  (td = ∅ /\ seg = [] /\ r = SUnit /\ s' = s) \/
  exists k e, td !! k = Some e /\ big t c s now td (callback c k e) seg r s'.
Proof.
  intros Hr. inversion 1 as [| | | | | | |? ? ? ? mc p' ? ? ? Hc Hat Ha Hb| |? ? ? ? ? _ Hb|? ? ? k e ? ? ? _ Hb|]; subst.
  - by destruct c.
  - left. by apply big_ret in Hb.
  - right. exists k, e. split; [|done]. eapply big_todo; [done|done|]. by destruct c.
Qed.

(** ** Range, trim and Clear go over what there is *)
Lemma visit_perm td k e (l : list (K * nat)) : td !! k = Some e -> l ≡ₚ map_to_list (delete k td) -> (k, e) :: l ≡ₚ map_to_list td.
Proof.
  intros Hk ->. rewrite <- (insert_delete td k e) at 2 by done. rewrite map_to_list_insert by apply lookup_delete. done.
Qed.
Lemma visit_sub td k s : td ⊆ x_map s -> delete k td ⊆ x_map (forget k s).
Proof. intros Hs. by apply delete_mono. Qed.
Lemma visit_sub' td k s : td ⊆ x_map s -> delete k td ⊆ x_map s.
Proof. intros Hs. etrans; [apply delete_subseteq|done]. Qed.
Lemma visit_size td k e n : td !! k = Some e -> size td <= S n -> size (delete k td) <= n.
Proof. intros Hk. rewrite map_size_delete_Some by eauto. lia. Qed.

Lemma sweep_range n t s now td seg r s' : size td <= n -> td ⊆ x_map s -> big t SRange s now td Q_wait seg r s' ->
  r = SUnit /\ exists l, l ≡ₚ map_to_list td /\ ranges t l s seg s'.
Proof.
  revert s now td seg. induction n as [|n IH]; intros s now td seg Hn Hsub Hb;
    (destruct (big_wait _ SRange _ _ _ _ _ _ eq_refl Hb) as [(-> & -> & -> & ->)|(k & e & Hk & Hb')];
     [split; [done|]; exists []; by rewrite map_to_list_empty|]).
  { exfalso. assert (Hz : size td = 0) by lia. apply map_size_empty_inv in Hz. subst. by rewrite lookup_empty in Hk. }
  clear Hb. cbn [callback] in Hb'. apply big_chk in Hb' as (c & v & x & seg1 & He & -> & Hb). cbn in Hb.
  assert (Hks : x_map s !! k = Some e) by by eapply lookup_weaken.
  destruct (Z.ltb x (ms c)) eqn:Ex.
  - eapply big_take in Hb as (seg2 & -> & Hb); [|done|done|done]. cbn in Hb. apply big_back in Hb as [_ Hb].
    apply IH in Hb as (-> & l & Hl & Hr); [|by eapply visit_size|by apply visit_sub]. split; [done|].
    exists ((k, e) :: l). split; [by apply visit_perm|]. cbn. exists c, v, x. split; [done|]. rewrite Ex. by exists seg2.
  - apply big_user in Hb as (b & seg2 & -> & Hb). apply big_back in Hb as [_ Hb]. destruct b.
    + apply IH in Hb as (-> & l & Hl & Hr); [|by eapply visit_size|by apply visit_sub']. split; [done|].
      exists ((k, e) :: l). split; [by apply visit_perm|]. cbn. exists c, v, x. split; [done|]. rewrite Ex. by exists true, seg2.
    + apply big_wait in Hb as [(_ & -> & -> & ->)|(k' & e' & Hk' & _)]; [|by rewrite lookup_empty in Hk'|done].
      split; [done|]. exists ((k, e) :: map_to_list (delete k td)). split; [by apply visit_perm|].
      cbn. exists c, v, x. split; [done|]. rewrite Ex. by exists false, [].
Qed.
Lemma sweep_trim n t (c : Z) s td seg r s' : size td <= n -> td ⊆ x_map s -> big t STrim s (ms c) td Q_wait seg r s' ->
  r = SUnit /\ exists l, l ≡ₚ map_to_list td /\ trims t c l s seg s'.
Proof.
  revert s td seg. induction n as [|n IH]; intros s td seg Hn Hsub Hb;
    (destruct (big_wait _ STrim _ _ _ _ _ _ eq_refl Hb) as [(-> & -> & -> & ->)|(k & e & Hk & Hb')];
     [split; [done|]; exists []; by rewrite map_to_list_empty|]).
  { exfalso. assert (Hz : size td = 0) by lia. apply map_size_empty_inv in Hz. subst. by rewrite lookup_empty in Hk. }
  clear Hb. cbn [callback] in Hb'. apply big_chk2 in Hb' as (v & x & seg1 & He & -> & Hb). cbn in Hb.
  assert (Hks : x_map s !! k = Some e) by by eapply lookup_weaken.
  destruct (Z.ltb x (ms c)) eqn:Ex.
  - eapply big_take in Hb as (seg2 & -> & Hb); [|done|done|done]. cbn in Hb. apply big_back in Hb as [_ Hb].
    apply IH in Hb as (-> & l & Hl & Hr); [|by eapply visit_size|by apply visit_sub]. split; [done|].
    exists ((k, e) :: l). split; [by apply visit_perm|]. cbn. exists v, x. split; [done|]. rewrite Ex. by exists seg2.
  - apply big_back in Hb as [_ Hb].
    apply IH in Hb as (-> & l & Hl & Hr); [|by eapply visit_size|by apply visit_sub']. split; [done|].
    exists ((k, e) :: l). split; [by apply visit_perm|]. cbn. exists v, x. split; [done|]. rewrite Ex. by exists seg1.
Qed.
(** Clear with deletedCallback. *)
Lemma sweep_clear n t s now td seg r s' : has_cb = true -> size td <= n -> td ⊆ x_map s ->
  big t SClear s now td Q_wait seg r s' ->
  r = SUnit /\ x_ent s' = x_ent s /\ x_map s' = x_map s ∖ td /\ exists l, l ≡ₚ map_to_list td /\
    Forall2 (fun (p : K * nat) ev => exists v x, x_ent s !! p.2 = Some (v, x) /\ ev = SDel t p.2 v) l seg.
Proof.
  intros Hcb. revert s td seg. induction n as [|n IH]; intros s td seg Hn Hsub Hb;
    (destruct (big_wait _ SClear _ _ _ _ _ _ Hcb Hb) as [(-> & -> & -> & ->)|(k & e & Hk & Hb')];
     [split; [done|]; split; [done|]; split; [by rewrite map_difference_empty|]; exists []; by rewrite map_to_list_empty|]).
  { exfalso. assert (Hz : size td = 0) by lia. apply map_size_empty_inv in Hz. subst. by rewrite lookup_empty in Hk. }
  clear Hb. cbn [callback] in Hb'. assert (Hks : x_map s !! k = Some e) by by eapply lookup_weaken.
  assert (is_Some (x_ent s !! e)) as [[v x] He].
  { apply big_cad in Hb'. rewrite decide_True in Hb' by done.
    change (big t SClear (forget k s) now td (del has_cb (SClear : scall) k e false) seg r s') in Hb'.
    apply big_del in Hb' as [_ Hb']. by apply Hb'. }
  eapply big_take in Hb' as (seg2 & -> & Hb); [|done|done|done]. cbn in Hb. apply big_back in Hb as [_ Hb].
  apply IH in Hb as (-> & Hent & Hmap & l & Hl & Hr); [|by eapply visit_size|by apply visit_sub].
  split; [done|]. split; [done|]. split.
  { rewrite Hmap. cbn. apply map_eq. intros k'. apply option_eq. intros e'. rewrite !lookup_difference_Some.
    destruct (decide (k' = k)) as [->|]; [rewrite !lookup_delete, Hk; naive_solver|by rewrite !lookup_delete_ne]. }
  exists ((k, e) :: l). split; [by apply visit_perm|]. unfold SyncCacheExactSpec.deletes. rewrite Hcb.
  cbn. constructor; [by eauto|done].
Qed.

Lemma big_now t c s now td seg r s' : big t c s now td Q_now seg r s' ->
  exists n seg1, seg = SClock t n :: seg1 /\ big t c s (ms n) td Q_get seg1 r s'.
Proof.
  inversion 1 as [| |? ? ? n ? ? ? Hb| | | | |? ? ? ? mc p' ? ? ? Hc Hat Ha Hb| | | |]; subst; [by eauto|by destruct c].
Qed.

Definition whole s : Prop := forall k e, x_map s !! k = Some e -> is_Some (x_ent s !! e).
Lemma whole_get s k e : whole s -> x_map s !! k = Some e -> exists v x, x_ent s !! e = Some (v, x).
Proof. intros Hw Hk. destruct (Hw _ _ Hk) as [[v x] He]. eauto. Qed.

Lemma big_effect t c s td seg r s' : whole s -> big t c s 0%Z td (start c) seg r s' -> effect t c s seg r s'.
Proof.
  intros Hw. destruct c as [k v d|k|k v d|k|k|k e|k v| | |]; cbn [start SyncCacheExactSpec.effect]; intros Hb.
  - apply big_new in Hb as (? & ? & ? & n & e & seg1 & [[= <- <- <-]|?] & He & -> & Hb); [|done].
    apply big_put in Hb as (-> & -> & ->). exists n, e. by rewrite app_nil_r.
  - apply big_get in Hb. destruct (x_map s !! k) as [e|] eqn:Ek; [|by apply big_ret in Hb].
    apply big_chk in Hb as (n & v & x & seg1 & He & -> & Hb). exists n, v, x. split; [done|]. cbn in Hb.
    destruct (Z.ltb x (ms n)).
    + eapply big_take in Hb as (seg2 & -> & Hb); [|done|done|done]. apply big_ret in Hb as (-> & -> & ->). by rewrite app_nil_r.
    + apply big_ret in Hb as (-> & -> & ->). by rewrite app_nil_r.
  - apply big_new in Hb as (? & ? & ? & n & e & seg1 & [?|[= <- <- <-]] & He & -> & Hb); [done|].
    exists n, e. split; [done|]. apply big_put in Hb. cbn in Hb.
    destruct (x_map s !! k) as [e0|] eqn:Ek; [|destruct Hb as (-> & -> & ->); by rewrite app_nil_r].
    apply big_chk in Hb as (n0 & v0 & x0 & seg2 & He0 & -> & Hb). exists n0, v0, x0. cbn in He0.
    destruct (whole_get _ _ _ Hw Ek) as (v1 & x1 & He1).
    rewrite lookup_insert_ne in He0 by congruence. rewrite He0 in He1. injection He1 as <- <-.
    split; [done|]. cbn in Hb.
    destruct (Z.ltb x0 (ms n0)).
    + eapply big_take in Hb as (seg3 & -> & Hb); [|done|by cbn; rewrite lookup_insert_ne by congruence|done].
      apply big_new in Hb as (? & ? & ? & n1 & e1 & seg4 & [?|[= <- <- <-]] & He1' & -> & Hb); [done|].
      apply big_put in Hb. cbn in Hb. rewrite lookup_delete in Hb. destruct Hb as (-> & -> & ->).
      cbn in He1'. apply lookup_insert_None in He1' as [He1' Hne]. exists n1, e1. split; [done|]. split; [done|].
      split; [by rewrite app_nil_r|]. split; [done|]. unfold enter, make. cbn. by rewrite insert_delete_insert.
    + apply big_ret in Hb as (-> & -> & ->). by rewrite app_nil_r.
  - apply big_get in Hb. destruct (x_map s !! k) as [e|] eqn:Ek.
    + apply big_del in Hb as [Hb _]. destruct (whole_get _ _ _ Hw Ek) as (v & x & He). exists v, x. split; [done|].
      destruct (Hb v x) as (seg1 & -> & Hb1); [done|]. apply big_ret in Hb1 as (-> & -> & ->). by rewrite app_nil_r.
    + apply big_ret in Hb as (-> & -> & ->). split; [done|]. split; [done|]. unfold forget. rewrite delete_notin by done. by destruct s.
  - apply big_get in Hb. destruct (x_map s !! k) as [e|] eqn:Ek.
    + apply big_chk in Hb as (n & v & x & seg1 & He & -> & Hb). exists n, v, x. split; [done|]. cbn [SyncCacheModel.after_chk] in Hb.
      apply big_del in Hb as [Hb _]. destruct (Hb v x) as (seg2 & -> & Hb1); [done|]. cbn in Hb1.
      apply big_ret in Hb1 as (-> & -> & ->). by rewrite app_nil_r.
    + apply big_ret in Hb as (-> & -> & ->). split; [done|]. split; [done|]. unfold forget. rewrite delete_notin by done. by destruct s.
  - case_decide as Ek.
    + destruct (whole_get _ _ _ Hw Ek) as (v & x & He). eapply big_take in Hb as (seg1 & -> & Hb); [|done|done|done].
      exists v, x. split; [done|]. apply big_ret in Hb as (-> & -> & ->). by rewrite app_nil_r.
    + apply big_cad in Hb. rewrite decide_False in Hb by done. by apply big_ret in Hb.
  - apply big_get in Hb. destruct (x_map s !! k) as [e|] eqn:Ek; [|by apply big_ret in Hb].
    apply big_chk in Hb as (n & w & x & seg1 & He & -> & Hb). exists n, w, x. split; [done|]. cbn in Hb.
    destruct (Z.ltb x (ms n)).
    { eapply big_take in Hb as (seg2 & -> & Hb); [|done|done|done]. apply big_ret in Hb as (-> & -> & ->). by rewrite app_nil_r. }
    destruct (veq v w) as [[]|].
    + eapply big_take in Hb as (seg2 & -> & Hb); [|done|done|done]. apply big_ret in Hb as (-> & -> & ->). by rewrite app_nil_r.
    + apply big_ret in Hb as (-> & -> & ->). by rewrite app_nil_r.
    + apply big_ret in Hb as (-> & -> & ->). by rewrite app_nil_r.
  - apply big_get in Hb. destruct has_cb eqn:Ecb; [|by destruct Hb as (-> & -> & ->)].
    rewrite <- Ecb in Hb. apply (sweep_clear (size (x_map s))) in Hb as (-> & He & Hm & l & Hl & Hf); [|done|done|done].
    split; [done|]. split; [|by exists l]. destruct s' as [mp' en']. cbn in He, Hm. subst. f_equal. apply map_difference_diag.
  - apply big_get in Hb. by eapply sweep_range.
  - apply big_now in Hb as (n & seg1 & -> & Hb). apply big_get in Hb.
    apply (sweep_trim (size (x_map s))) in Hb as (-> & l & Hl & Hs); [|done|done]. split; [done|]. by exists n, l, seg1.
Qed.

Lemma whole_forget k s : whole s -> whole (forget k s).
Proof. intros Hw k' e'. cbn. intros [_ Hk]%lookup_delete_Some. by eapply Hw. Qed.
Lemma whole_make e v x s : whole s -> whole (make e v x s).
Proof. intros Hw k' e' Hk. cbn. destruct (decide (e' = e)) as [->|]; [rewrite lookup_insert; eauto|]. rewrite lookup_insert_ne by done. by eapply Hw. Qed.
Lemma whole_enter k e s : whole s -> is_Some (x_ent s !! e) -> whole (enter k e s).
Proof. intros Hw He k' e'. cbn. intros [[<- <-]|[_ Hk]]%lookup_insert_Some; [done|by eapply Hw]. Qed.
Lemma whole_ranges t l s seg s' : whole s -> ranges t l s seg s' -> whole s'.
Proof.
  revert s seg. induction l as [|[k e] l IH]; intros s seg Hw; cbn; [by intros [_ ->]|].
  intros (n & v & x & He & Hr). destruct (Z.ltb x (ms n)).
  - destruct Hr as (seg1 & _ & Hr). eapply IH; [|done]. by apply whole_forget.
  - destruct Hr as ([] & seg1 & _ & Hr); [by eapply IH|]. by destruct Hr as [_ ->].
Qed.
Lemma whole_trims t n l s seg s' : whole s -> trims t n l s seg s' -> whole s'.
Proof.
  revert s seg. induction l as [|[k e] l IH]; intros s seg Hw; cbn; [by intros [_ ->]|].
  intros (v & x & He & Hr). destruct (Z.ltb x (ms n)).
  - destruct Hr as (seg1 & _ & Hr). eapply IH; [|done]. by apply whole_forget.
  - destruct Hr as (seg1 & _ & Hr). by eapply IH.
Qed.
Lemma effect_whole t c s seg r s' : whole s -> effect t c s seg r s' -> whole s'.
Proof.
  assert (Hin : forall e v x (s0 : cache), is_Some (x_ent (make e v x s0) !! e)) by (intros; cbn; rewrite lookup_insert; eauto).
  intros Hw. destruct c as [k v d|k|k v d|k|k|k e|k v| | |]; cbn [SyncCacheExactSpec.effect].
  - intros (n & e & _ & _ & _ & ->). auto using whole_enter, whole_make.
  - destruct (x_map s !! k) as [e'|]; [|by intros (_ & _ & ->)]. intros (n & v & x & _ & Hef).
    destruct (Z.ltb x (ms n)); destruct Hef as (_ & _ & ->); auto using whole_forget.
  - intros (n & e & _ & Hef). destruct (x_map s !! k) as [e0|].
    + destruct Hef as (n0 & v0 & x0 & _ & Hef). destruct (Z.ltb x0 (ms n0)).
      * destruct Hef as (n1 & e1 & _ & _ & _ & _ & ->). auto using whole_enter, whole_make.
      * destruct Hef as (_ & _ & ->). auto using whole_make.
    + destruct Hef as (_ & _ & ->). auto using whole_enter, whole_make.
  - destruct (x_map s !! k) as [e'|]; [intros (v & x & _ & _ & _ & ->)|intros (_ & _ & ->)]; auto using whole_forget.
  - destruct (x_map s !! k) as [e'|]; [intros (n & v & x & _ & _ & _ & ->)|intros (_ & _ & ->)]; auto using whole_forget.
  - case_decide; [intros (v & x & _ & _ & _ & ->)|intros (_ & _ & ->)]; auto using whole_forget.
  - destruct (x_map s !! k) as [e'|]; [|by intros (_ & _ & ->)]. intros (n & w & x & _ & Hef). destruct (Z.ltb x (ms n)).
    + destruct Hef as (_ & _ & ->). auto using whole_forget.
    + destruct (veq v w) as [[]|]; destruct Hef as (_ & _ & ->); auto using whole_forget.
  - intros (_ & -> & _). intros k e. cbn. by rewrite lookup_empty.
  - intros (_ & l & _ & Hr). by eapply whole_ranges.
  - intros (_ & n & l & seg1 & _ & _ & Hr). by eapply whole_trims.
Qed.
(** ** Calls one after the other *)
Lemma idle_behaves h m m' :
  idle m -> whole (cache_of m) -> mrun m h m' -> one_by_one false (trace h) -> c_fr (m_cl m') = ∅ ->
  behaves (cache_of m) (trace h) (cache_of m').
Proof.
  remember (length h) as n eqn:Hn. assert (Hle : length h <= n) by lia. clear Hn. revert h m Hle.
  induction n as [|n IH]; intros h m Hle Hid Hw Hr Ho He.
  { destruct h; [|cbn in Hle; lia]. cbn in Hr. subst. constructor. }
  destruct h as [|x h]; [cbn in Hr; subst; constructor|]. destruct Hr as (m1 & Hs & Hr). apply mstep_case in Hs.
  cbn in Hle. rewrite trace_cons in Ho |- *.
  destruct (idle_step deref veq has_cb _ _ _ Hid Hs) as [(t & c & Hx & Hal & Hc & Hno)|(Hid' & e & v & y & Hent & [(at_ & Hx & Hc)|(d & Hx & Hc)])].
  - rewrite Hx in Ho |- *. cbn in Ho. destruct Ho as [_ Ho].
    destruct (solo_rest deref veq has_cb _ _ _ _ _ _ _ Hal Hr Ho He) as (h1 & h2 & m2 & seg & r & -> & Hn & Hr2 & Ht & Hid2 & Hcl & Ho2).
    rewrite trace_app, Ht. rewrite <- (assoc_L (++)). cbn [app]. 
    assert (Hef : effect t c (cache_of m) seg r (cache_of m2)).
    { apply (big_effect t c _ (todo has_cb c (a_st (m_map m1) !! tid t false) (map_of m1))); [done|].
      rewrite <- Hc. unfold claim_of in Hcl. rewrite claim_nw in Hcl; [done|]. by destruct c. }
    econstructor; [done|apply IH; try done].
    + rewrite app_length in Hle. destruct h1; [done|]. cbn in Hle. lia.
    + by eapply effect_whole.
  - rewrite Hx in Ho |- *. cbn in Ho. eapply behaves_set; [done|]. rewrite <- Hc. apply IH; [lia|done|rewrite Hc; by apply whole_make|done|by apply Ho|done].
  - rewrite Hx in Ho |- *. cbn in Ho. eapply behaves_add; [done|]. rewrite <- Hc. apply IH; [lia|done|rewrite Hc; by apply whole_make|done|by apply Ho|done].
Qed.
End calls.
