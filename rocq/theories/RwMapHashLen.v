(** rwmap with keys that cannot be hashed: the counter of an execution without Clear.  Proofs. *)
From Coq Require Import ZifyBool ZifyNat.
From Verif Require Import Base RwMapModel RwMapSpec RwMapHashModel RwMapHashSpec RwMapHash.

Section len.
Context {K : Type} `{Countable K} {V : Type}.
Context (deref : nat -> V) (zero : V) (veq : V -> V -> option bool).
Notation run := (run deref zero veq). Notation act := (act deref zero veq).
Notation hrun := (hrun deref zero veq). Notation hact := (hact deref zero veq).

Lemma run_join a (cf : config K V) e1 cf1 b e2 cf2 : run cf a = Some (cf1, e1) -> run cf1 b = Some (cf2, e2) -> run cf (a ++ b) = Some (cf2, e1 ++ e2).
Proof.
  revert cf e1. induction a as [|x a IH]; intros cf e1 Ha Hb; cbn [RwMapModel.run app] in *; [by injection Ha as <- <-|].
  destruct (act cf x) as [[cf3 e3]|]; [|done]. destruct (run cf3 a) as [[cf4 e4]|] eqn:H4; [|done].
  injection Ha as <- <-. rewrite (IH _ _ H4 Hb). by rewrite app_assoc.
Qed.

(** The calls that will still count *)
Definition to_count (x : bcall * bpc) : bool := match x with (_, B_len) => true | (b, B_read) => deferred_adds b | _ => false end.
Definition pending (m : gmap nat (bcall * bpc)) : nat := size (filter (fun tx => to_count tx.2 = true) m).
Definition one (b : bool) : nat := if b then 1 else 0.
Lemma pending_insert m t x : pending (<[t := x]> m) = one (to_count x) + pending (delete t m).
Proof.
  unfold pending. rewrite <- insert_delete_insert. destruct (to_count x) eqn:Hx.
  - rewrite map_filter_insert_True by done. rewrite map_size_insert_None; [done|].
    apply map_filter_lookup_None. left. apply lookup_delete.
  - rewrite map_filter_insert_False by (cbn; by rewrite Hx). by rewrite delete_idemp.
Qed.
Lemma pending_old m t x : m !! t = Some x -> pending m = one (to_count x) + pending (delete t m).
Proof. intros Hm. rewrite <- (insert_id m t x Hm) at 1. apply pending_insert. Qed.

Lemma failed_app (a b : list (hevent K V)) : failed_stores (a ++ b) = (failed_stores a + failed_stores b)%Z.
Proof. induction a as [|[] a IH]; cbn; lia. Qed.
Lemma failed_ev (ev : list (event K V)) : failed_stores (HEv <$> ev) = 0%Z.
Proof. induction ev as [|e ev IH]; [done|]. cbn. exact IH. Qed.
Lemma miscounted_one b : miscounted b = Z.of_nat (one (deferred_adds b)). Proof. by destruct b. Qed.
Lemma hact_pending (hc : hconfig K V) a hc1 ev : hact hc a = Some (hc1, ev) ->
  (counts_now hc a + Z.of_nat (pending (h_bad hc1)) = Z.of_nat (pending (h_bad hc)) + failed_stores ev)%Z.
Proof.
  intros Ha. destruct a as [a|t b|t]; cbn [RwMapHashModel.hact counts_now] in *.
  - destruct (match a with AInv t _ => _ | AStep _ _ => _ end); [|done]. cbn in Ha.
    destruct (act (h_cf hc) a) as [[cf ev']|]; [|done]. injection Ha as <- <-. cbn [h_bad]. rewrite failed_ev. lia.
  - destruct (c_thr (h_cf hc) !! t); [done|]. destruct (h_bad hc !! t) eqn:Hb; [done|]. injection Ha as <- <-. cbn [h_bad].
    rewrite pending_insert, delete_notin by done. cbn. rewrite miscounted_one. lia.
  - destruct (h_bad hc !! t) as [[b p]|] eqn:Hb; [|done]. rewrite (pending_old _ _ _ Hb).
    destruct p; injection Ha as <- <-; cbn [h_bad failed_stores]; rewrite ?pending_insert; cbn [to_count].
    + destruct (deferred_adds b); cbn [to_count one]; lia.
    + cbn [one]. lia.
    + cbn [one]. lia.
Qed.
Definition clears (ev : hevent K V) : Prop := exists t, ev = HEv (EInv t CClear).
Lemma hact_no_clear (hc : hconfig K V) a hc1 ev : no_clear hc -> hact hc a = Some (hc1, ev) -> Forall (fun e => ~ clears e) ev -> no_clear hc1.
Proof.
  intros Hn Ha Hev. destruct a as [[t c|t lab]|t b|t]; cbn [RwMapHashModel.hact] in Ha.
  - destruct (h_bad hc !! t); [done|]. cbn in Ha. destruct (c_thr (h_cf hc) !! t); [done|]. injection Ha as <- <-.
    intros u c' p. cbn [h_cf c_thr]. destruct (decide (u = t)) as [->|Hu]; [|rewrite lookup_insert_ne by done; apply Hn].
    rewrite lookup_insert. intros [= <- <-]. apply Forall_cons in Hev as [Hev _]. split; [|by destruct c; intros []].
    intros ->. apply Hev. by exists t.
  - cbn in Ha. destruct (c_thr (h_cf hc) !! t) as [[c p]|] eqn:Ht; [|done]. destruct (Hn _ _ _ Ht) as [Hc Hp].
    destruct (step deref zero veq t c p (c_sh (h_cf hc)) lab) as [[[[p'|] s1] ev1]|] eqn:Hs; [..|done]; injection Ha as <- <-; intros u c' q; cbn [h_cf c_thr].
    + destruct (decide (u = t)) as [->|Hu]; [|rewrite lookup_insert_ne by done; apply Hn].
      rewrite lookup_insert. intros [= <- <-]. split; [done|]. by eapply step_clr.
    + destruct (decide (u = t)) as [->|Hu]; [by rewrite lookup_delete|rewrite lookup_delete_ne by done; apply Hn].
  - destruct (c_thr (h_cf hc) !! t); [done|]. destruct (h_bad hc !! t); [done|]. by injection Ha as <- <-.
  - destruct (h_bad hc !! t) as [[b []]|]; [..|done]; by injection Ha as <- <-.
Qed.
Lemma hrun_len acts (hc : hconfig K V) cf l hc' ev : hrel hc cf l -> no_clear hc -> hrun hc acts = Some (hc', ev) -> Forall (fun e => ~ clears e) ev ->
  exists acts' cf' l', run cf acts' = Some (cf', drop_len l (hashed ev)) /\ hrel hc' cf' l' /\
    (len_off hc' cf' + Z.of_nat (pending (h_bad hc')) = len_off hc cf + Z.of_nat (pending (h_bad hc)) + failed_stores ev)%Z.
Proof.
  revert hc cf l ev. induction acts as [|a acts IH]; intros hc cf l ev Hr Hn Hh Hev; cbn [RwMapHashModel.hrun] in Hh.
  { injection Hh as <- <-. exists [], cf, l. split_and!; [done|done|cbn; lia]. }
  destruct (hact hc a) as [[hc1 ev1]|] eqn:Ha; [|done]. destruct (hrun hc1 acts) as [[hc2 ev2]|] eqn:Hh2; [|done]. injection Hh as <- <-.
  apply Forall_app in Hev as [Hev1 Hev2].
  destruct (hact_rel _ _ _ _ _ _ _ _ _ Hr Ha) as (acts1 & cf1 & l1 & tr1 & H1 & H2 & H3 & H4).
  destruct (IH _ _ _ _ H2 (hact_no_clear _ _ _ _ Hn Ha Hev1) Hh2 Hev2) as (acts2 & cf2 & l2 & H5 & H6 & H7).
  exists (acts1 ++ acts2), cf2, l2. split_and!; [|done|].
  - rewrite hashed_app, H3. by eapply run_join.
  - specialize (H4 Hn). pose proof (hact_pending _ _ _ _ Ha). rewrite failed_app. lia.
Qed.
(** Without Clear, no call overlaps one. *)
Lemma no_clear_alone (tr : list (event K V)) pend : (forall t, EInv t CClear ∉ tr) -> (forall u, pend !! u <> Some CClear) -> clear_alone pend tr.
Proof.
  revert pend. induction tr as [|[t c|t r|t k v b] tr IH]; intros pend Htr Hp; cbn [clear_alone]; [done|..].
  - assert (Hc : c <> CClear) by (intros ->; apply (Htr t); left). split; [done|]. split; [done|]. apply IH.
    + intros u Hu. apply (Htr u). by right.
    + intros u. destruct (decide (u = t)) as [->|Hu]; [rewrite lookup_insert; congruence|by rewrite lookup_insert_ne].
  - apply IH; [intros u Hu; apply (Htr u); by right|]. intros u.
    destruct (decide (u = t)) as [->|Hu]; [by rewrite lookup_delete|by rewrite lookup_delete_ne].
  - apply IH; [intros u Hu; apply (Htr u); by right|done].
Qed.
Lemma drop_len_elem l (tr : list (event K V)) e : e ∈ drop_len l tr -> e ∈ tr.
Proof.
  revert l. induction tr as [|[t c|t r|t k v b] tr IH]; intros l; cbn [drop_len]; [done|..].
  - destruct c; intros Hx; first [apply elem_of_cons in Hx as [->|Hx]; [left|right; by eapply IH] | right; by eapply IH].
  - case_decide; intros Hx; [right; by eapply IH|]. apply elem_of_cons in Hx as [->|Hx]; [left|right; by eapply IH].
  - intros Hx. apply elem_of_cons in Hx as [->|Hx]; [left|right; by eapply IH].
Qed.
Lemma hashed_elem (tr : list (hevent K V)) e : e ∈ hashed tr -> HEv e ∈ tr.
Proof. intros Hx. apply elem_of_list_bind in Hx as ([x|t b|t] & Hx & Hin); [by apply elem_of_list_singleton in Hx as ->|by apply elem_of_nil in Hx..]. Qed.
End len.
