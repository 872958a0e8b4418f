From Coq Require Import ZifyBool ZifyNat.
From Verif Require Import Base GoMap GoMapSpec GoMapProofs SetModel SetSpec SetProofs VecModel VecSpec VecProofs VecSteps VecHistory VecQuery HashRingModel HashRingSpec.

Section sets.
  Context {N : Type} (eqb : N -> N -> bool) (Heq : forall x y, eqb x y = true <-> x = y).
  Context (upd : bool) (ord : nat -> list (N * unit) -> list (N * unit)) (ordP : forall n l, ord n l ≡ₚ l).
  Notation swf := (GoMapProofs.wf (V:=unit) eqb).
  Notation has w r x := (inb eqb (content w r) x).
  Implicit Types (w : world N unit) (r : ref).

  Lemma Heq_equiv : equivb eqb.
  Proof.
    split; [|split].
    - intros x. by apply Heq.
    - intros x y H. apply Heq in H as ->. by apply Heq.
    - intros x y z H1 H2. apply Heq in H1 as ->. done.
  Qed.
  Let E := Heq_equiv.

  Lemma new_ok w : swf w -> exists w', set_New w = Ok (Some (next w), w') /\ swf w' /\ next w' = S (next w) /\
    (forall x, ~ has w' (Some (next w)) x) /\ (forall r x, r <> Some (next w) -> has w' r x <-> has w r x).
  Proof.
    intros Hw. destruct (set_step eqb upd ord SNew w) as [r w'] eqn:Es.
    destruct (set_step_spec eqb upd E ord ordP SNew w r w' Hw) as [Hw' Hd]; [intros n Hn; by apply elem_of_nil in Hn|done|].
    inversion Hd; subst. match goal with H : s_created _ _ _ _ |- _ => destruct H as (->&Hc&Hm&Ho) end.
    unfold set_step in Es. cbn [set_exec] in Es. exists w'. injection Es as Es. subst w'. split; [done|].
    split; [done|]. split; [exact Hc|]. split; [intros x; rewrite (Hm x); tauto|]. done.
  Qed.
  Lemma push_all_ok n vs w : swf w -> n < next w -> exists w', set_Push eqb upd (Some n) vs w = Ok (Some n, w') /\
    swf w' /\ next w' = next w /\ (forall x, has w' (Some n) x <-> has w (Some n) x \/ x ∈ vs) /\
    (forall r x, r <> Some n -> has w' r x <-> has w r x).
  Proof.
    intros Hw Hn. destruct (push_ok eqb upd E ord ordP n vs w Hw Hn) as (w'&l'&Ef&Hw'&(H1&H2&H3)&Hl).
    exists w'. unfold set_Push, bind. rewrite Ef. split; [done|]. split; [done|]. split; [done|]. split.
    - intros x. rewrite H2, Hl. unfold among. split; intros [?|H]; auto; right.
      + destruct H as (y&Hy&Ey). by apply Heq in Ey as ->.
      + exists x. split; [done|]. by apply Heq.
    - intros r x Hr. by rewrite H3.
  Qed.
  Lemma diff_ok a b w : swf w -> (forall n, a = Some n \/ b = Some n -> n < next w) ->
    exists w', set_Difference eqb upd ord a b w = Ok (Some (next w), w') /\ swf w' /\ next w' = S (next w) /\
    (forall x, has w' (Some (next w)) x <-> has w a x /\ ~ has w b x) /\
    (forall r x, r <> Some (next w) -> has w' r x <-> has w r x).
  Proof.
    intros Hw Hr. destruct (set_step eqb upd ord (SDifference a b) w) as [r w'] eqn:Es.
    destruct (set_step_spec eqb upd E ord ordP (SDifference a b) w r w' Hw) as [Hw' Hd]; [|done|].
    { intros n Hn. apply Hr. cbn in Hn. apply elem_of_cons in Hn as [->|Hn%elem_of_list_singleton]; auto. }
    exists w'. inversion Hd; subst. match goal with H : s_created _ _ _ _ |- _ => destruct H as (->&Hc&Hm&Ho) end.
    unfold set_step in Es. cbn [set_exec] in Es. unfold smap, bind in Es.
    destruct (set_Difference _ _ _ _ _ _) as [[u w1]| |]; [|done..]. injection Es as -> ->.
    split; [done|]. split; [done|]. split; [exact Hc|]. split; done.
  Qed.
  Lemma inter_ok a b w : swf w -> (forall n, a = Some n \/ b = Some n -> n < next w) ->
    exists w', set_Intersection eqb upd ord a b w = Ok (Some (next w), w') /\ swf w' /\ next w' = S (next w) /\
    (forall x, has w' (Some (next w)) x <-> has w a x /\ has w b x) /\
    (forall r x, r <> Some (next w) -> has w' r x <-> has w r x).
  Proof.
    intros Hw Hr. destruct (set_step eqb upd ord (SIntersection a b) w) as [r w'] eqn:Es.
    destruct (set_step_spec eqb upd E ord ordP (SIntersection a b) w r w' Hw) as [Hw' Hd]; [|done|].
    { intros n Hn. apply Hr. cbn in Hn. apply elem_of_cons in Hn as [->|Hn%elem_of_list_singleton]; auto. }
    exists w'. inversion Hd; subst. match goal with H : s_created _ _ _ _ |- _ => destruct H as (->&Hc&Hm&Ho) end.
    unfold set_step in Es. cbn [set_exec] in Es. unfold smap, bind in Es.
    destruct (set_Intersection _ _ _ _ _ _) as [[u w1]| |]; [|done..]. injection Es as -> ->.
    split; [done|]. split; [done|]. split; [exact Hc|]. split; done.
  Qed.
  Lemma clear_ok n w : swf w -> n < next w -> exists w', set_Clear (Some n) w = Ok (Some n, w') /\ swf w' /\ next w' = next w /\
    (forall x, ~ has w' (Some n) x) /\ (forall r x, r <> Some n -> has w' r x <-> has w r x).
  Proof.
    intros Hw Hr. destruct (set_step eqb upd ord (SClear (Some n)) w) as [r w'] eqn:Es.
    destruct (set_step_spec eqb upd E ord ordP (SClear (Some n)) w r w' Hw) as [Hw' Hd]; [|done|].
    { intros m Hn. apply elem_of_list_singleton in Hn. injection Hn as ->. done. }
    exists w'. inversion Hd; subst. match goal with H : s_becomes _ _ _ _ |- _ => destruct H as (Hc&Hm&Ho) end.
    unfold set_step in Es. cbn [set_exec] in Es. unfold smap, bind in Es.
    destruct (set_Clear _ _) as [[u w1]| |]; [|done..]. injection Es as -> ->.
    split; [done|]. split; [done|]. split; [exact Hc|]. split; [intros x; rewrite (Hm x); tauto|done].
  Qed.
  (** The entries an iteration visits. *)
  Lemma range_ok' r w : swf w -> NoDup (map fst (ord (its w) (content w r))) /\
    (forall x, x ∈ map fst (ord (its w) (content w r)) <-> has w r x).
  Proof.
    intros Hw. destruct (lists_inb eqb E w r (ord (its w) (content w r)) Hw (ordP _ _)) as [H1 H2]. split.
    - apply NoDup_alt. intros i j x Hi Hj. apply (H2 i j x x); [done|done|]. by apply Heq.
    - intros x. change (has w r x) with (mem (sabs eqb w) r x). rewrite (H1 x). split.
      + intros Hx. exists x. split; [done|]. by apply Heq.
      + intros (y&Hy&Ey). by apply Heq in Ey as ->.
  Qed.
End sets.

Section vec.
  Context {N : Type} (zero : N).
  Notation V := (vworld (N * Z)).
  Implicit Types (w : V) (v : nat) (hr : ring).

  Lemma hash_swo : swo (hash_less (N:=N)).
  Proof. split; [|split]; unfold hash_less; intros; lia. Qed.
  Lemma hash_matches : matches (hash_less (N:=N)) hash_equal.
  Proof. unfold matches, hash_less, hash_equal. intros. lia. Qed.

  (** A vector of the ring. *)
  Record vok w v : Prop := {
    vk_inv : inv w;
    vk_in : v < w_vn w;
    vk_less : v_less (w_vec w v) = Some (CUser hash_less);
    vk_equal : v_equal (w_vec w v) = Some (CUser hash_equal) }.

  Lemma vok_less w v : vok w v -> cmp_less None (S v) w v = Some hash_less.
  Proof. intros H. cbn. by rewrite (vk_less _ _ H). Qed.
  Lemma vok_equal w v : vok w v -> cmp_equal None (S v) w v = Some hash_equal.
  Proof. intros H. cbn. by rewrite (vk_equal _ _ H). Qed.

  Lemma vok_len w v : vok w v -> VecModel.Len v w = Ok (Z.of_nat (length (vseq w v)), w).
  Proof. intros H. rewrite Len_eq. by rewrite (len_l w v (vk_inv _ _ H) (vk_in _ _ H)). Qed.
  Lemma vok_get w v i x : vok w v -> vseq w v !! i = Some x -> VecModel.Get (zero, 0%Z) v (Z.of_nat i) w = Ok ((x, true), w).
  Proof.
    intros H Hx. pose proof (lookup_lt_Some _ _ _ Hx) as Hl.
    unfold VecModel.Get. unfold bind at 1. rewrite vok_len by done.
    replace (_ || _)%bool with false by lia. unfold bind at 1, get_d. unfold bind, idx.
    unfold getZ. rewrite bool_decide_true by lia. rewrite Nat2Z.id. unfold vseq in Hx. by rewrite Hx.
  Qed.
  Lemma vok_first w v x : vok w v -> vseq w v !! 0 = Some x -> VecModel.First (zero, 0%Z) v w = Ok ((x, true), w).
  Proof.
    intros H Hx. pose proof (lookup_lt_Some _ _ _ Hx) as Hl.
    unfold VecModel.First. unfold bind at 1. rewrite vok_len by done.
    replace (_ =? _)%Z with false by lia. unfold bind at 1, get_d. unfold bind, idx.
    unfold getZ. rewrite bool_decide_true by lia. change (Z.to_nat 0) with 0. unfold vseq in Hx. by rewrite Hx.
  Qed.
  Lemma vok_search w v t : vok w v -> all_sorted hash_less (vseq w v) -> exists i b,
    VecModel.BinarySearch None None v t w = Ok ((Z.of_nat i, b), w) /\ i <= length (vseq w v) /\
      (forall k x, k < i -> vseq w v !! k = Some x -> hash_less x t = true) /\
      (forall k x, i <= k -> vseq w v !! k = Some x -> hash_less x t = false) /\
      (b = true <-> exists x, vseq w v !! i = Some x /\ hash_equal x t = true).
  Proof.
    intros H Hs. destruct (BinarySearchFunc_ok hash_less hash_equal (vseq w v) t hash_swo Hs) as (i&b&E&Hi).
    exists i, b. split; [|done]. unfold VecModel.BinarySearch, VecModel.BinarySearchFunc, bind, get_d, read, lift, CmpLess, CmpEqual.
    rewrite vok_less, vok_equal by done. unfold call_cmp. unfold pure_cmp in E. unfold vseq in E. by rewrite E.
  Qed.
  Context (growth : nat -> nat -> nat -> nat).
  Context (srt : (N * Z -> N * Z -> Z) -> list (N * Z) -> list (N * Z)).
  Lemma vok_push w v x : vok w v -> exists w', VecModel.Push (zero, 0%Z) growth v x w = Ok (tt, w') /\
    vok w' v /\ vseq w' v = vseq w v ++ x.
  Proof.
    intros H. destruct (Push_gen (zero, 0%Z) growth srt srt w v (vk_inv _ _ H) (vk_in _ _ H) x) as (w'&Ew&Es&Hi&Hf&Hn).
    exists w'. split; [done|]. split; [|done].
    destruct (keeps_Push (zero, 0%Z) growth v x w tt w' Ew) as (_&K). injection (K v (vk_in _ _ H)) as K1 K2.
    destruct H. constructor; [done|by rewrite Hn|by rewrite K1|by rewrite K2].
  Qed.
  Lemma vok_clear w v : vok w v -> exists w', VecModel.Clear v w = Ok (tt, w') /\ vok w' v /\ vseq w' v = [].
  Proof.
    intros H. pose proof H as [Hi Hv H1 H2].
    destruct (Clear_ok (zero, 0%Z) growth None srt srt w v Hi Hv) as (r&w'&Ew&_&Es&Hi'&Hf&_&Hn). cbn in Hn.
    pose proof (keeps_exec (zero, 0%Z) growth None srt srt v VClear eq_refl w r w' Ew) as (_&K).
    injection (K v Hv) as K1 K2. exists w'. cbn [v_exec] in Ew. unfold bind in Ew.
    destruct (VecModel.Clear v w) as [[[] w1]| |]; [|done..]. injection Ew as _ ->. split; [done|]. split; [|done].
    constructor; [done|by rewrite Hn|by rewrite K1|by rewrite K2].
  Qed.
  Lemma vok_sort w v : sorts srt -> vok w v -> exists w', VecModel.Sort None None srt v w = Ok (tt, w') /\
    vok w' v /\ vseq w' v ≡ₚ vseq w v /\ all_sorted hash_less (vseq w' v).
  Proof.
    intros [Hp Hs] H. pose proof H as [Hi Hv H1 H2].
    destruct (Sort_ok (zero, 0%Z) growth None srt srt w v Hi Hv hash_less hash_equal Hp) as (r&w'&Ew&_&Es&Hi'&Hf&_&Hn). cbn in Hn.
    pose proof (keeps_exec (zero, 0%Z) growth None srt srt v (VSortFunc hash_less hash_equal) eq_refl w r w' Ew) as (_&K).
    injection (K v Hv) as K1 K2. exists w'. cbn [v_exec] in Ew. unfold bind in Ew.
    unfold VecModel.Sort, sort_with. rewrite (vok_less w v), (vok_equal w v) by done.
    destruct (SortFunc srt v hash_less hash_equal w) as [[[] w1]| |]; [|done..]. injection Ew as _ ->. split; [done|]. split.
    { constructor; [done|by rewrite Hn|by rewrite K1|by rewrite K2]. }
    rewrite Es. split; [apply Hp|]. apply Hs; [apply hash_swo|apply hash_matches].
  Qed.
End vec.

Section ring.
  Context {N : Type} (zero : N) (eqb : N -> N -> bool) (hash : N -> Z -> Z).
  Notation swf := (GoMapProofs.wf (V:=unit) eqb).
  Notation has w r x := (inb eqb (content w r) x).
  Implicit Types (P : N -> Prop) (hr : ring) (w : hworld N).

  Definition pure_vnodes (n : N) (i k : Z) : list (N * Z) := map (fun j => (n, hash n j)) (seqZ i k).

  Record rinv (replicas : Z) P hr w : Prop := {
    ri_repl : r_replicas hr = replicas;
    ri_set : swf (fst w);
    ri_raw : exists r, r_raw hr = Some r /\ r < next (fst w) /\ forall x, has (fst w) (Some r) x <-> P x;
    ri_vec : vok (snd w) (r_nodes hr);
    ri_sorted : all_sorted hash_less (ring_seq hr w);
    ri_nodes : exists ms, NoDup ms /\ (forall x, x ∈ ms <-> P x) /\ ring_seq hr w ≡ₚ virtual_nodes hash replicas ms }.

  Lemma virtual_nodes_app replicas ms ms' :
    virtual_nodes hash replicas (ms ++ ms') = virtual_nodes hash replicas ms ++ virtual_nodes hash replicas ms'.
  Proof. unfold virtual_nodes. by rewrite map_app, concat_app. Qed.
  Lemma elem_of_virtual_nodes replicas ms n h :
    (n, h) ∈ virtual_nodes hash replicas ms <-> virtual hash replicas (fun x => x ∈ ms) n h.
  Proof.
    unfold virtual_nodes, virtual. rewrite elem_of_list_In, in_concat. split.
    - intros (l&Hl&Hin). apply in_map_iff in Hl as (m&<-&Hm). apply in_map_iff in Hin as (i&[= -> <-]&Hi).
      apply elem_of_list_In in Hm. apply elem_of_list_In, elem_of_seqZ in Hi. split; [done|]. exists i. split; [lia|done].
    - intros [Hn (i&Hi&->)]. exists (map (fun i => (n, hash n i)) (seqZ 0 replicas)). split.
      + apply in_map_iff. exists n. split; [done|]. by apply elem_of_list_In.
      + apply in_map_iff. exists i. split; [done|]. apply elem_of_list_In, elem_of_seqZ. lia.
  Qed.
  Lemma virtual_ext replicas P Q n h : (forall x, P x <-> Q x) -> virtual hash replicas P n h <-> virtual hash replicas Q n h.
  Proof. intros H. unfold virtual. by rewrite H. Qed.
  Lemma rinv_ext replicas P Q hr w : (forall x, P x <-> Q x) -> rinv replicas P hr w -> rinv replicas Q hr w.
  Proof.
    intros H [H1 H2 (r&H3&H4&H5) H6 H7 (ms&H8&H9&H10)]. constructor; [done|done| |done|done|].
    - exists r. split; [done|]. split; [done|]. intros x. by rewrite H5.
    - exists ms. split; [done|]. split; [|done]. intros x. by rewrite H9.
  Qed.
  Lemma rinv_elem replicas P hr w n h : rinv replicas P hr w -> (n, h) ∈ ring_seq hr w <-> virtual hash replicas P n h.
  Proof.
    intros H. destruct (ri_nodes _ _ _ _ H) as (ms&_&Hm&Hp). rewrite Hp, elem_of_virtual_nodes. by apply virtual_ext.
  Qed.

  Context (Heq : forall x y, eqb x y = true <-> x = y).
  Context (upd : bool) (ord : nat -> list (N * unit) -> list (N * unit)) (ordP : forall n l, ord n l ≡ₚ l).
  Context (growth : nat -> nat -> nat -> nat).

  Lemma push_replicas_ok hr val k : forall i w, vok (snd w) (r_nodes hr) -> exists v',
    push_replicas zero hash growth hr val i k w = Ok (tt, (fst w, v')) /\ vok v' (r_nodes hr) /\
    vseq v' (r_nodes hr) = vseq (snd w) (r_nodes hr) ++ map (fun j => (val, hash val j)) (seqZ i (Z.of_nat k)).
  Proof.
    induction k as [|k IH]; intros i w Hv.
    - exists (snd w). cbn. rewrite app_nil_r. by destruct w.
    - cbn [push_replicas]. unfold bind at 1, on_vec.
      destruct (vok_push zero growth (fun _ l => l) (snd w) (r_nodes hr) [(val, hash val i)] Hv) as (v1&E1&Hv1&S1). rewrite E1.
      destruct (IH (i + 1)%Z (fst w, v1) Hv1) as (v'&E'&Hv'&S'). exists v'. split; [exact E'|]. split; [done|].
      rewrite S'. cbn [snd]. rewrite S1. rewrite <- app_assoc. f_equal.
      replace (Z.of_nat (S k)) with (Z.succ (Z.of_nat k)) by lia. rewrite (seqZ_cons i (Z.succ (Z.of_nat k))) by lia. cbn [map app]. by rewrite Z.pred_succ, Z.add_1_r.
  Qed.
  Lemma push_nodes_ok hr vals : forall w, vok (snd w) (r_nodes hr) -> exists v',
    push_nodes zero hash growth hr vals w = Ok (tt, (fst w, v')) /\ vok v' (r_nodes hr) /\
    vseq v' (r_nodes hr) = vseq (snd w) (r_nodes hr) ++ virtual_nodes hash (r_replicas hr) vals.
  Proof.
    induction vals as [|val vals IH]; intros w Hv.
    - exists (snd w). cbn. rewrite app_nil_r. by destruct w.
    - cbn [push_nodes]. unfold bind at 1.
      destruct (push_replicas_ok hr val (Z.to_nat (r_replicas hr)) 0 w Hv) as (v1&E1&Hv1&S1). rewrite E1.
      destruct (IH (fst w, v1) Hv1) as (v'&E'&Hv'&S'). exists v'. split; [exact E'|]. split; [done|].
      rewrite S'. cbn [snd]. rewrite S1. rewrite <- app_assoc. f_equal. unfold virtual_nodes at 2. cbn [map concat]. f_equal. f_equal.
      destruct (Z.leb_spec 0 (r_replicas hr)); [by rewrite Z2Nat.id|]. rewrite (seqZ_nil 0 (r_replicas hr)) by lia. by rewrite seqZ_nil by lia.
  Qed.

  Context (srt : (N * Z -> N * Z -> Z) -> list (N * Z) -> list (N * Z)) (Hsrt : sorts srt).
  Notation AddNodes := (h_AddNodes zero eqb hash upd ord growth srt).
  Notation ResetNodes := (h_ResetNodes zero eqb hash upd ord growth srt).
  Notation RemoveNodes := (h_RemoveNodes zero eqb hash upd ord growth srt).

  Lemma AddNodes_ok replicas P hr w l : rinv replicas P hr w -> exists w',
    AddNodes hr l w = Ok (tt, w') /\ rinv replicas (fun x => P x \/ x ∈ l) hr w'.
  Proof.
    intros H. unfold h_AddNodes. destruct (Nat.eqb_spec (length l) 0) as [Hl|Hl].
    { exists w. split; [done|]. apply length_zero_iff_nil in Hl as ->. eapply rinv_ext; [|exact H].
      intros x. cbn. rewrite elem_of_nil. tauto. }
    destruct w as [s v]. destruct H as [H1 H2 (r&H3&H4&H5) H6 H7 (ms&H8&H9&H10)]. cbn [fst snd] in *.
    destruct (new_ok eqb Heq upd ord ordP s H2) as (s1&E1&W1&N1&A1&B1).
    unfold bind at 1. unfold on_sets at 1. cbn [fst snd]. rewrite E1.
    destruct (push_all_ok eqb Heq upd ord ordP (next s) l s1 W1) as (s2&E2&W2&N2&A2&B2); [lia|].
    unfold bind at 1. unfold on_sets at 1. cbn [fst snd]. rewrite E2.
    destruct (diff_ok eqb Heq upd ord ordP (Some (next s)) (r_raw hr) s2 W2) as (s3&E3&W3&N3&A3&B3).
    { intros n [[= <-]|Hn]; [lia|]. rewrite H3 in Hn. injection Hn as <-. lia. }
    unfold bind at 1. unfold on_sets at 1. cbn [fst snd]. rewrite E3.
    destruct (range_ok' eqb Heq ord ordP (Some (next s2)) s3 W3) as [R1 R2].
    unfold bind at 1. unfold on_sets at 1, go_range. cbn [fst snd].
    set (vals := map fst (ord (its s3) (content s3 (Some (next s2))))) in *.
    fold (tick s3).
    destruct (push_nodes_ok hr vals (tick s3, v) H6) as (v1&E4&V1&S1). unfold bind at 1. rewrite E4. cbn [fst snd] in *.
    unfold bind at 1. unfold on_sets at 1, set_Slice, maps_Keys, bind at 1, go_range, ret. cbn [fst snd].
    destruct (range_ok' eqb Heq ord ordP (Some (next s2)) (tick s3)) as [R3 R4]; [exact W3|].
    fold (tick (tick s3)). set (vals2 := map fst (ord (its (tick s3)) (content (tick s3) (Some (next s2))))) in *.
    rewrite H3.
    destruct (push_all_ok eqb Heq upd ord ordP r vals2 (tick (tick s3))) as (s4&E5&W4&N4&A4&B4); [exact W3|cbn; lia|].
    unfold bind at 1. unfold on_sets at 1. cbn [fst snd]. rewrite E5.
    destruct (vok_sort zero growth srt v1 (r_nodes hr) Hsrt V1) as (v2&E6&V2&P2&S2).
    unfold on_vec. cbn [fst snd]. rewrite E6. eexists. split; [reflexivity|].
    assert (Hr : forall x, has s3 (Some r) x <-> P x).
    { intros x. rewrite (B3 (Some r)) by (intros Ex; injection Ex; lia). rewrite (B2 (Some r)) by (intros Ex; injection Ex; lia). rewrite (B1 (Some r)) by (intros Ex; injection Ex; lia). apply H5. }
    assert (Hvals : forall x, has s3 (Some (next s2)) x <-> x ∈ l /\ ~ P x).
    { intros x. rewrite A3, A2, H3. rewrite (B2 (Some r)) by (intros Ex; injection Ex; lia). rewrite (B1 (Some r)) by (intros Ex; injection Ex; lia). rewrite H5.
      specialize (A1 x). tauto. }
    assert (Hdec : forall x, x ∈ vals \/ ~ x ∈ vals) by (intros x; rewrite R2; unfold inb; destruct (mlookup eqb _ x); [left; done|right; tauto]).
    constructor; cbn [fst snd]; try done.
    - exists r. split; [done|]. split; [cbn in N4; lia|]. intros x. rewrite A4, !content_tick, Hr, R4, content_tick, Hvals.
      assert (P x \/ ~ P x); [|tauto]. rewrite <- (H5 x). unfold inb. destruct (mlookup eqb _ x); [left; done|right; tauto].
    - exists (ms ++ vals). split; [|split].
      + apply NoDup_app. split; [done|]. split; [|done]. intros x Hx. rewrite R2, Hvals. rewrite H9 in Hx. tauto.
      + intros x. rewrite elem_of_app, H9, R2, Hvals.
        assert (P x \/ ~ P x); [|tauto]. rewrite <- (H5 x). unfold inb. destruct (mlookup eqb _ x); [left; done|right; tauto].
      + unfold ring_seq. cbn [snd]. rewrite P2, S1, virtual_nodes_app. unfold ring_seq in H10. cbn [snd] in H10. by rewrite H10, H1.
  Qed.

  Lemma ResetNodes_ok replicas P hr w l : rinv replicas P hr w -> exists w',
    ResetNodes hr l w = Ok (tt, w') /\ rinv replicas (fun x => x ∈ l) hr w'.
  Proof.
    intros [H1 H2 (r&H3&H4&H5) H6 H7 _]. destruct w as [s v]. cbn [fst snd] in *. unfold h_ResetNodes.
    destruct (vok_clear zero growth srt v (r_nodes hr) H6) as (v1&E1&V1&S1).
    unfold bind at 1. unfold on_vec at 1. cbn [fst snd]. rewrite E1.
    destruct (clear_ok eqb Heq upd ord ordP r s H2 H4) as (s1&E2&W1&N1&A1&B1).
    unfold bind at 1. unfold on_sets at 1. cbn [fst snd]. rewrite H3, E2.
    destruct (AddNodes_ok replicas (fun _ => False) hr (s1, v1) l) as (w'&E3&R3).
    { constructor; cbn [fst snd]; try done.
      - exists r. split; [done|]. split; [lia|]. intros x. specialize (A1 x). tauto.
      - unfold ring_seq. cbn [snd]. rewrite S1. intros i j x y _ Hx. done.
      - exists []. split; [constructor|]. split; [intros x; rewrite elem_of_nil; tauto|]. unfold ring_seq. cbn [snd]. by rewrite S1. }
    exists w'. split; [done|]. eapply rinv_ext; [|exact R3]. intros x. cbn. tauto.
  Qed.
  Lemma RemoveNodes_ok replicas P hr w l : rinv replicas P hr w -> exists w',
    RemoveNodes hr l w = Ok (tt, w') /\ rinv replicas (fun x => P x /\ x ∉ l) hr w'.
  Proof.
    intros H. unfold h_RemoveNodes. destruct (Nat.eqb_spec (length l) 0) as [Hl|Hl].
    { exists w. split; [done|]. apply length_zero_iff_nil in Hl as ->. eapply rinv_ext; [|exact H].
      intros x. cbn. rewrite elem_of_nil. tauto. }
    destruct w as [s v]. destruct H as [H1 H2 (r&H3&H4&H5) H6 H7 (ms&H8&H9&H10)]. cbn [fst snd] in *.
    destruct (new_ok eqb Heq upd ord ordP s H2) as (s1&E1&W1&N1&A1&B1).
    unfold bind at 1. unfold on_sets at 1. cbn [fst snd]. rewrite E1.
    destruct (push_all_ok eqb Heq upd ord ordP (next s) l s1 W1) as (s2&E2&W2&N2&A2&B2); [lia|].
    unfold bind at 1. unfold on_sets at 1. cbn [fst snd]. rewrite E2.
    destruct (inter_ok eqb Heq upd ord ordP (r_raw hr) (Some (next s)) s2 W2) as (s3&E3&W3&N3&A3&B3).
    { intros n [Hn|[= <-]]; [|lia]. rewrite H3 in Hn. injection Hn as <-. lia. }
    unfold bind at 1. unfold on_sets at 1. cbn [fst snd]. rewrite E3.
    destruct (diff_ok eqb Heq upd ord ordP (r_raw hr) (Some (next s2)) s3 W3) as (s4&E4&W4&N4&A4&B4).
    { intros n [Hn|[= <-]]; [|lia]. rewrite H3 in Hn. injection Hn as <-. lia. }
    unfold bind at 1. unfold on_sets at 1. cbn [fst snd]. rewrite E4.
    destruct (range_ok' eqb Heq ord ordP (Some (next s3)) s4 W4) as [R1 R2].
    unfold bind at 1. unfold on_sets at 1, set_Slice, maps_Keys, bind at 1, go_range, ret. cbn [fst snd].
    set (vals := map fst (ord (its s4) (content s4 (Some (next s3))))) in *. fold (tick s4).
    assert (Hr : forall k x, (k <= next s)%nat -> has s3 (Some k) x <-> has s2 (Some k) x) by (intros k x Hk; apply B3; intros Ex; injection Ex; lia).
    assert (Hp : forall x, has s2 (Some r) x <-> P x).
    { intros x. rewrite (B2 (Some r)) by (intros Ex; injection Ex; lia). rewrite (B1 (Some r)) by (intros Ex; injection Ex; lia). apply H5. }
    assert (Hd : forall x, P x \/ ~ P x).
    { intros x. rewrite <- (H5 x). unfold inb. destruct (mlookup eqb _ x); [left; done|right; tauto]. }
    assert (Hvals : forall x, x ∈ vals <-> P x /\ x ∉ l).
    { intros x. rewrite R2, A4, A3, H3, (Hr r) by lia. rewrite Hp, A2. specialize (A1 x). specialize (Hd x). tauto. }
    destruct (ResetNodes_ok replicas P hr (tick s4, v) vals) as (w'&E5&R5).
    { constructor; cbn [fst snd]; try done.
      - exists r. split; [done|]. split; [cbn; lia|]. intros x. rewrite content_tick. rewrite (B4 (Some r)) by (intros Ex; injection Ex; lia). rewrite Hr by lia. apply Hp.
      - by exists ms. }
    exists w'. split; [done|]. eapply rinv_ext; [|exact R5]. done.
  Qed.
  Lemma exec_ok replicas P hr w c : rinv replicas P hr w -> exists w',
    h_exec zero eqb hash upd ord growth srt hr c w = Ok (tt, w') /\ rinv replicas (member_after P c) hr w'.
  Proof. destruct c; cbn [h_exec member_after]; [apply AddNodes_ok|apply ResetNodes_ok|apply RemoveNodes_ok]. Qed.
  Lemma run_ok replicas hr cs : forall P w, rinv replicas P hr w -> exists w',
    h_run zero eqb hash upd ord growth srt hr cs w = Ok (tt, w') /\ rinv replicas (foldl member_after P cs) hr w'.
  Proof.
    induction cs as [|c cs IH]; intros P w H; [by exists w|]. cbn [h_run foldl].
    destruct (exec_ok _ _ _ _ c H) as (w1&E1&H1). unfold bind. rewrite E1. by apply IH.
  Qed.
  Lemma program_ok replicas cs : exists hr w,
    h_program zero eqb hash upd ord growth srt replicas cs = Ok (hr, w) /\ rinv replicas (members cs) hr w.
  Proof.
    unfold h_program. set (hr := mk_ring replicas (Some 0) 0).
    set (w0 := (World {[0 := []]} 1 0, mk_vworld (fun _ => []) 0 (<[0 := mk_vec nil_slice (Some (CUser hash_less)) (Some (CUser hash_equal))]> (fun _ => mk_vec nil_slice None None)) 1) : hworld N).
    assert (E0 : h_New replicas empty_hworld = Ok (hr, w0)) by reflexivity. rewrite (bind_ok _ _ _ _ _ E0).
    destruct (run_ok replicas hr cs (fun _ => False) w0) as (w'&E&H).
    { constructor; [done| | | | |].
      - split; cbn.
        + intros n. unfold content. cbn. destruct n; [by rewrite lookup_singleton|]. by rewrite lookup_singleton_ne by done.
        + intros n Hn. by rewrite lookup_singleton_ne by lia.
      - exists 0. split; [done|]. split; [cbn; lia|]. intros x. unfold content, w0. cbn. unfold inb. cbn. tauto.
      - destruct (New_ok empty_vworld (Some (CUser (hash_less (N:=N)))) (Some (CUser hash_equal))) as (v1&E1&I1&S1&N1&_&_&_&_&C1); [|done|done|].
        { constructor; cbn; intros; lia. }
        injection E1 as E1. cbn [w_vn empty_vworld] in *. replace (snd w0) with v1 by (by rewrite <- E1). change (r_nodes hr) with 0.
        constructor; [done|cbn; lia|by rewrite C1|by rewrite C1].
      - unfold ring_seq, vseq. cbn. intros i j x y _ Hx. done.
      - exists []. split; [constructor|]. split; [intros x; rewrite elem_of_nil; tauto|]. done. }
    exists hr, w'. split; [|done]. by rewrite (bind_ok _ _ _ _ _ E).
  Qed.
End ring.

Section order.
  Context {N : Type}.
  Lemma clockwise_unique (U : N -> Z -> Prop) h n m : (forall a b x, U a x -> U b x -> a = b) ->
    clockwise U h n -> clockwise U h m -> n = m.
  Proof.
    intros HU (h1&U1&C1) (h2&U2&C2). assert (h1 = h2) as ->; [|by eapply HU].
    destruct C1 as [[L1 C1]|C1], C2 as [[L2 C2]|C2].
    - specialize (C1 m h2 U2 L2). specialize (C2 n h1 U1 L1). lia.
    - destruct (C2 n h1 U1). lia.
    - destruct (C1 m h2 U2). lia.
    - destruct (C2 n h1 U1), (C1 m h2 U2). lia.
  Qed.
  Lemma clockwise_ext (U U' : N -> Z -> Prop) h n : (forall a x, U a x <-> U' a x) -> clockwise U h n -> clockwise U' h n.
  Proof.
    intros HU (h1&U1&C1). exists h1. split; [by apply HU|]. destruct C1 as [[L1 C1]|C1]; [left|right].
    - split; [done|]. intros m h2 Hm. apply HU in Hm. by apply (C1 m).
    - intros m h2 Hm. apply HU in Hm. by apply (C1 m).
  Qed.
  (** Fewer virtual nodes, the owner among them. *)
  Lemma clockwise_sub (U U' : N -> Z -> Prop) h n : (forall a x, U' a x -> U a x) -> (forall x, U n x -> U' n x) ->
    clockwise U h n -> clockwise U' h n.
  Proof.
    intros HU Hn (h1&U1&C1). exists h1. split; [by apply Hn|]. destruct C1 as [[L1 C1]|C1]; [left|right].
    - split; [done|]. intros m h2 Hm. by apply (C1 m), HU.
    - intros m h2 Hm. by apply (C1 m), HU.
  Qed.

  Lemma sorted_perm (l l' : list (N * Z)) : l ≡ₚ l' -> all_sorted hash_less l -> all_sorted hash_less l' ->
    (forall n m h, (n, h) ∈ l -> (m, h) ∈ l -> n = m) -> l = l'.
  Proof.
    revert l'. induction l as [|[n h] l IH]; intros l' Hp Hs Hs' Hc.
    - by apply Permutation_nil in Hp.
    - destruct l' as [|[m h'] l']; [by apply Permutation_length in Hp|].
      assert (n = m /\ h = h') as [-> ->].
      { assert ((m, h') ∈ (n, h) :: l) as H1 by (rewrite Hp; left).
        assert ((n, h) ∈ (m, h') :: l') as H2 by (rewrite <- Hp; left).
        assert (h = h') as ->.
        { apply elem_of_list_lookup in H1 as [i Hi]. apply elem_of_list_lookup in H2 as [j Hj].
          destruct i as [|i]; [by injection Hi|]. destruct j as [|j]; [by injection Hj|].
          pose proof (Hs 0 (S i) _ _ ltac:(lia) eq_refl Hi) as A. pose proof (Hs' 0 (S j) _ _ ltac:(lia) eq_refl Hj) as B.
          unfold hash_less in A, B. cbn in A, B. lia. }
        split; [|done]. apply (Hc n m h'); [left|done]. }
      f_equal. apply IH.
      + by apply Permutation_cons_inv in Hp.
      + intros i j x y Hij Hx Hy. apply (Hs (S i) (S j)); [lia|done|done].
      + intros i j x y Hij Hx Hy. apply (Hs' (S i) (S j)); [lia|done|done].
      + intros a b x Ha Hb. apply (Hc a b x); by right.
  Qed.
End order.

Section get.
  Context {N : Type} (zero : N) (eqb : N -> N -> bool) (hash : N -> Z -> Z).
  Implicit Types (P : N -> Prop) (hr : ring) (w : hworld N).
  Notation V := (virtual hash).

  Lemma GetNode_ok replicas P hr w key : rinv eqb hash replicas P hr w -> exists n,
    h_GetNode zero hash hr key w = Ok (n, w) /\
    ((n = zero /\ forall m h, ~ V replicas P m h) \/
     (n = key /\ exists m, V replicas P m (hash key 0%Z)) \/
     ((forall m, ~ V replicas P m (hash key 0%Z)) /\ clockwise (V replicas P) (hash key 0%Z) n)).
  Proof.
    intros H. pose proof H as [_ _ _ Hv Hs _].
    assert (Hel : forall m h, V replicas P m h <-> (m, h) ∈ vseq (snd w) (r_nodes hr)) by (intros m h; symmetry; by apply (rinv_elem eqb hash replicas P hr w)).
    unfold h_GetNode. unfold ring_seq in Hs. destruct w as [s v]. cbn [snd] in *. unfold bind at 1. unfold on_vec at 1. cbn [fst snd].
    rewrite vok_len by done. destruct (Z.eqb_spec (Z.of_nat (length (vseq v (r_nodes hr)))) 0) as [Hn|Hn].
    { exists zero. split; [done|]. left. split; [done|]. intros m h. rewrite Hel.
      assert (vseq v (r_nodes hr) = []) as -> by (apply length_zero_iff_nil; lia). apply not_elem_of_nil. }
    unfold bind at 1. unfold on_vec at 1. cbn [fst snd].
    destruct (vok_search v (r_nodes hr) (key, hash key 0%Z) Hv Hs) as (i&b&Eb&Hi&H1&H2&H3). rewrite Eb. cbn [fst snd].
    destruct b.
    { exists key. split; [done|]. right. left. split; [done|]. destruct H3 as [H3 _]. destruct (H3 eq_refl) as ([m h]&Hx&Ex).
      exists m. rewrite Hel. unfold hash_equal in Ex. cbn in Ex. apply Z.eqb_eq in Ex as <-. by eapply elem_of_list_lookup_2. }
    assert (Hno : forall m, ~ V replicas P m (hash key 0%Z)).
    { intros m Hm. rewrite Hel in Hm. apply elem_of_list_lookup in Hm as [k Hk].
      assert (i <= k). { destruct (decide (i <= k)); [done|]. pose proof (H1 k _ ltac:(lia) Hk) as Hlt. unfold hash_less in Hlt. cbn in Hlt. lia. }
      destruct (vseq v (r_nodes hr) !! i) as [[m' h']|] eqn:Ei.
      - destruct H3 as [_ H3]. enough (false = true) by done. apply H3. exists (m', h'). split; [done|].
        pose proof (H2 i _ ltac:(lia) Ei) as Hge. unfold hash_less in Hge. cbn in Hge. unfold hash_equal. cbn.
        destruct (decide (i = k)) as [->|]; [|pose proof (Hs i k _ _ ltac:(lia) Ei Hk) as Hle; unfold hash_less in Hle; cbn in Hle; lia].
        rewrite Hk in Ei. injection Ei as -> ->. lia.
      - apply lookup_ge_None in Ei. apply lookup_lt_Some in Hk. lia. }
    unfold bind at 1. unfold on_vec at 1. cbn [fst snd]. rewrite vok_len by done.
    destruct (Z.eqb_spec (Z.of_nat i) (Z.of_nat (length (vseq v (r_nodes hr))))) as [He|He].
    - destruct (lookup_lt_is_Some_2 (vseq v (r_nodes hr)) 0) as [[n h] Hx]; [lia|].
      unfold bind at 1. unfold on_vec at 1. cbn [fst snd]. rewrite (vok_first zero v (r_nodes hr) (n, h)) by done. cbn [fst snd].
      exists n. split; [done|]. right. right. split; [done|]. exists h. split; [apply Hel; by eapply elem_of_list_lookup_2|].
      right. intros m h2 Hm. rewrite Hel in Hm. apply elem_of_list_lookup in Hm as [k Hk]. pose proof (lookup_lt_Some _ _ _ Hk) as Hlt. split.
      + pose proof (H1 k _ ltac:(lia) Hk) as Hl. unfold hash_less in Hl. cbn in Hl. lia.
      + destruct k as [|k]; [rewrite Hx in Hk; injection Hk as -> ->; lia|].
        pose proof (Hs 0 (S k) _ _ ltac:(lia) Hx Hk) as Hl. unfold hash_less in Hl. cbn in Hl. lia.
    - destruct (lookup_lt_is_Some_2 (vseq v (r_nodes hr)) i) as [[n h] Hx]; [lia|].
      unfold bind at 1. unfold on_vec at 1. cbn [fst snd]. rewrite (vok_get zero v (r_nodes hr) i (n, h)) by done. cbn [fst snd].
      exists n. split; [done|]. right. right. split; [done|]. exists h. split; [apply Hel; by eapply elem_of_list_lookup_2|].
      left. split.
      + pose proof (H2 i _ ltac:(lia) Hx) as Hl. unfold hash_less in Hl. cbn in Hl.
        destruct (decide (h = hash key 0%Z)) as [->|]; [|lia]. exfalso. apply (Hno n). apply Hel. by eapply elem_of_list_lookup_2.
      + intros m h2 Hm Hgt. rewrite Hel in Hm. apply elem_of_list_lookup in Hm as [k Hk].
        destruct (decide (k < i)) as [Hki|Hki]; [pose proof (H1 k _ Hki Hk) as Hl; unfold hash_less in Hl; cbn in Hl; lia|].
        destruct (decide (i = k)) as [->|]; [rewrite Hx in Hk; injection Hk as -> ->; lia|].
        pose proof (Hs i k _ _ ltac:(lia) Hx Hk) as Hl. unfold hash_less in Hl. cbn in Hl. lia.
  Qed.

  Lemma virtual_nodes_perm replicas (ms ms' : list N) : ms ≡ₚ ms' -> virtual_nodes hash replicas ms ≡ₚ virtual_nodes hash replicas ms'.
  Proof.
    unfold virtual_nodes. induction 1 as [|x l l' _ IH|x y l|l1 l2 l3 _ IH1 _ IH2]; cbn; [done|by rewrite IH| |by etrans].
    rewrite !(assoc_L (++)). by rewrite (comm (++) (map _ _) (map _ _)).
  Qed.
  Lemma rinv_same replicas P P' hr w hr' w' : rinv eqb hash replicas P hr w -> rinv eqb hash replicas P' hr' w' -> (forall x, P x <-> P' x) ->
    ring_seq hr w ≡ₚ ring_seq hr' w' /\ (collision_free hash replicas P -> ring_seq hr w = ring_seq hr' w').
  Proof.
    intros H H' HP. pose proof (ri_nodes _ _ _ _ _ _ H) as (ms&D&M&S). pose proof (ri_nodes _ _ _ _ _ _ H') as (ms'&D'&M'&S').
    assert (Hp : ring_seq hr w ≡ₚ ring_seq hr' w').
    { rewrite S, S'. apply virtual_nodes_perm. apply NoDup_Permutation; [done..|]. intros x. by rewrite M, M'. }
    split; [done|]. intros Hc. apply sorted_perm; [done|apply H|apply H'|].
    intros n m h Hn Hm. apply (Hc n m h); by eapply (rinv_elem eqb).
  Qed.
  Lemma rinv_dec replicas P hr w x : rinv eqb hash replicas P hr w -> P x \/ ~ P x.
  Proof. intros H. destruct (ri_raw _ _ _ _ _ _ H) as (r&_&_&Hr). rewrite <- (Hr x). unfold inb. destruct (mlookup eqb _ x); [left; done|right; tauto]. Qed.
End get.
