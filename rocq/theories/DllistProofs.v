From Coq Require Import ZifyBool ZifyNat.
From Verif Require Import Base Chain DllistModel DllistSpec.

Ltac fsimp := repeat first
  [ rewrite fn_lookup_insert | rewrite fn_lookup_insert_ne by (assumption || congruence || lia) ].
(** Unfold the primitive reads and writes. *)
Ltac prims := unfold bind, rd, rd_l, root_of, wr_next, wr_prev, wr_list, wr_len, wr_init, wr_val, new_elem, ret; cbn.

(** Run such a program to its end. *)
Ltac exec := prims; repeat first
  [ progress fsimp | progress cbn
  | match goal with H : ?a = Some _ |- context [match ?a with Some _ => _ | None => _ end] => rewrite H end ].

Ltac case_in H := repeat (apply elem_of_cons in H; destruct H as [->|H]); [..|by apply elem_of_nil in H].
Ltac notin H := rewrite ?not_elem_of_cons in H; destruct_and? H.

Section proofs.
  Context {T : Type} (zero : T).
  Implicit Types (w : dworld T) (l : nat).

  (** The representation of one list. *)
  Definition repr w l (ids : list nat) : Prop :=
    l_len w l = Z.of_nat (length ids) /\ NoDup ids /\
    (if l_init w l then cyc (e_next w) (e_prev w) (l_root w l) ids else ids = []) /\
    (forall e, e ∈ ids -> e_list w e = Some l /\ e < n_elems w).

  Record Inv w : Prop := {
    i_root : forall l, l < n_lists w -> l_root w l < n_elems w /\ e_list w (l_root w l) = None;
    i_inj : forall l l', l < n_lists w -> l' < n_lists w -> l_root w l = l_root w l' -> l = l';
    i_repr : forall l, l < n_lists w -> repr w l (seq_of w l) }.

  Lemma walk_cyc nx pv root pre post :
    cyc nx pv root (pre ++ post) -> walk nx (length post) (nx (default root (last pre))) = post.
  Proof.
    revert pre. induction post as [|e post IH]; intros pre H; [done|].
    cbn [length walk].
    assert (E : nx (default root (last pre)) = Some e).
    { destruct pre as [|x pre _] using rev_ind; [cbn; by apply cyc_root_next in H|].
      rewrite last_snoc. cbn. rewrite <- app_assoc in H. cbn in H. by apply cyc_next in H. }
    rewrite E. f_equal. specialize (IH (pre ++ [e])). rewrite last_snoc in IH. apply IH.
    by rewrite <- app_assoc.
  Qed.
  Lemma repr_seq w l ids : repr w l ids -> seq_of w l = ids.
  Proof.
    intros (Hl & _ & Hc & _). unfold seq_of. rewrite Hl, Nat2Z.id.
    destruct (l_init w l); [|by subst]. by apply (walk_cyc (e_next w) (e_prev w) (l_root w l) [] ids).
  Qed.

  Lemma repr_not_root w l ids l' e :
    Inv w -> l' < n_lists w -> repr w l ids -> e ∈ ids -> e <> l_root w l'.
  Proof.
    intros HI Hl' (_ & _ & _ & H) He ->. destruct (i_root _ HI l' Hl') as [_ Hr].
    destruct (H _ He) as [H' _]. congruence.
  Qed.
  Lemma repr_nodup w l ids : Inv w -> l < n_lists w -> repr w l ids -> NoDup (l_root w l :: ids).
  Proof.
    intros HI Hl Hr. apply NoDup_cons. split; [|apply Hr].
    intros H. by eapply (repr_not_root w l ids l).
  Qed.

  (** Cells that only list [l] may use. *)
  Definition priv w l (x : nat) : Prop :=
    x = l_root w l \/ e_list w x = Some l \/
    (e_list w x = None /\ ~ is_root w x) \/ n_elems w <= x.

  Record frame w w' l (X : nat -> Prop) : Prop := {
    f_cells : forall x, ~ X x -> e_next w' x = e_next w x /\ e_prev w' x = e_prev w x /\ e_list w' x = e_list w x;
    f_priv : forall x, X x -> priv w l x;
    f_root : forall l', l_root w' l' = l_root w l';
    f_lists : forall l', l' <> l -> l_len w' l' = l_len w l' /\ l_init w' l' = l_init w l';
    f_nl : n_lists w' = n_lists w;
    f_ne : n_elems w <= n_elems w' }.

  Lemma frame_other w w' l X l' :
    Inv w -> l < n_lists w -> l' < n_lists w -> l' <> l -> frame w w' l X -> repr w' l' (seq_of w l').
  Proof.
    intros HI Hl Hl' Hne F. destruct (i_repr _ HI l' Hl') as (A & B & C & D).
    assert (HX : forall x, x ∈ l_root w l' :: seq_of w l' -> ~ X x).
    { intros x Hx HX. apply (f_priv _ _ _ _ F) in HX.
      destruct (i_root _ HI l' Hl') as [R1 R2].
      apply elem_of_cons in Hx as [->|Hx].
      - destruct HX as [E|[E|[[E1 E2]|E]]]; [|congruence| |lia].
        + by apply Hne, (i_inj _ HI).
        + apply E2. by exists l'.
      - destruct (D _ Hx) as [D1 D2].
        destruct HX as [->|[E|[[E1 E2]|E]]]; [|congruence|congruence|lia].
        destruct (i_root _ HI l Hl). congruence. }
    destruct (f_lists _ _ _ _ F l' Hne) as [L1 L2].
    split_and!; [by rewrite L1|done| |].
    - rewrite L2, (f_root _ _ _ _ F). destruct (l_init w l'); [|done].
      eapply cyc_frame; [exact C|]. intros x Hx. destruct (f_cells _ _ _ _ F x (HX x Hx)) as (? & ? & ?). done.
    - intros e He. destruct (D _ He) as [D1 D2].
      destruct (f_cells _ _ _ _ F e) as (_ & _ & ->); [apply HX; by right|].
      pose proof (f_ne _ _ _ _ F). split; [done|lia].
  Qed.
  Lemma frame_inv w w' l X ids' :
    Inv w -> l < n_lists w -> frame w w' l X ->
    e_list w' (l_root w l) = None -> repr w' l ids' ->
    Inv w' /\ seq_of w' l = ids' /\ (forall l', l' < n_lists w -> l' <> l -> seq_of w' l' = seq_of w l').
  Proof.
    intros HI Hl F Hr Hrep.
    assert (Ho : forall l', l' < n_lists w -> l' <> l -> repr w' l' (seq_of w l')).
    { intros l' Hl' Hne. exact (frame_other w w' l X l' HI Hl Hl' Hne F). }
    split_and!.
    - split.
      + intros l' Hl'. rewrite (f_nl _ _ _ _ F) in Hl'. rewrite (f_root _ _ _ _ F).
        destruct (i_root _ HI l' Hl') as [R1 R2]. pose proof (f_ne _ _ _ _ F). split; [lia|].
        destruct (decide (l' = l)) as [->|Hne]; [done|].
        destruct (f_cells _ _ _ _ F (l_root w l')) as (_ & _ & ->); [|done].
        intros HX. apply (f_priv _ _ _ _ F) in HX. destruct HX as [E|[E|[[E1 E2]|E]]]; [|congruence| |lia].
        * by apply Hne, (i_inj _ HI).
        * apply E2. by exists l'.
      + intros l1 l2. rewrite (f_nl _ _ _ _ F), !(f_root _ _ _ _ F). apply (i_inj _ HI).
      + intros l'. rewrite (f_nl _ _ _ _ F). intros Hl'. destruct (decide (l' = l)) as [->|Hne].
        * by rewrite (repr_seq _ _ _ Hrep).
        * specialize (Ho l' Hl' Hne). by rewrite (repr_seq _ _ _ Ho).
    - by apply repr_seq.
    - intros l' Hl' Hne. apply repr_seq. auto.
  Qed.

  Lemma frame_live w w' l X ids' :
    Inv w -> l < n_lists w -> frame w w' l X ->
    seq_of w' l = ids' -> (forall l', l' < n_lists w -> l' <> l -> seq_of w' l' = seq_of w l') ->
    (forall e, e < n_elems w ->
       (e_list w' e = e_list w e /\ (e ∈ ids' <-> e ∈ seq_of w l)) \/
       (e ∈ seq_of w l /\ e_list w' e = None)) ->
    same_live (dabs w) (dabs w').
  Proof.
    intros HI Hl F Hs Ho Hc e He. cbn in He. cbn.
    assert (Hroot : is_root w' e <-> is_root w e).
    { unfold is_root. rewrite (f_nl _ _ _ _ F). split; intros (l' & ? & E); exists l';
      (split; [done|]); by rewrite ?(f_root _ _ _ _ F) in *. }
    rewrite Hroot, (f_nl _ _ _ _ F). pose proof (f_ne _ _ _ _ F) as Hne.
    destruct (Hc e He) as [[H1 H2]|[H1 H2]].
    - rewrite H1. split; intros (A & B & C); (split_and!; [lia|done|]); intros l' Hl'; destruct (C l' Hl') as [C1 C2];
        (split; [done|]); destruct (decide (l' = l)) as [->|Hn].
      + apply H2. by rewrite <- Hs.
      + by rewrite <- (Ho l').
      + rewrite Hs. by apply H2.
      + by rewrite (Ho l').
    - destruct (i_repr _ HI l Hl) as (_ & _ & _ & D). destruct (D _ H1) as [D1 D2].
      split; intros (A & B & C); (split_and!; [lia|done|]); intros l' Hl'.
      + assert (l' = l) as -> by congruence. done.
      + congruence.
  Qed.

  (** Clear and lazyInit *)
  Lemma Clear_ok w l :
    Inv w -> l < n_lists w ->
    exists w', dl_Clear l w = Ok (l, w') /\ Inv w' /\ frame w w' l (fun x => x = l_root w l) /\
      l_init w' l = true /\ seq_of w' l = [] /\
      (forall l', l' < n_lists w -> l' <> l -> seq_of w' l' = seq_of w l') /\
      (forall e, e_val w' e = e_val w e) /\ (forall e, e_list w' e = e_list w e) /\ n_elems w' = n_elems w.
  Proof.
    intros HI Hl. eexists. split; [prims; reflexivity|].
    match goal with |- Inv ?x /\ _ => set (w' := x) end.
    assert (F : frame w w' l (fun x => x = l_root w l)).
    { split; cbn; try done; try lia.
      - intros x Hx. fsimp. done.
      - intros x ->. by left.
      - intros l' Hn. fsimp. done. }
    destruct (frame_inv w w' l _ [] HI Hl F) as (H1 & H2 & H3).
    - cbn. by apply (i_root _ HI).
    - split_and!; cbn.
      + by fsimp.
      + constructor.
      + fsimp. unfold cyc. cbn. apply chain_cons. fsimp. rewrite chain_one. done.
      + intros e He. by apply elem_of_nil in He.
    - split_and!; try done. cbn. by fsimp.
  Qed.

  Lemma lazyInit_ok w l :
    Inv w -> l < n_lists w ->
    exists w', dl_lazyInit l w = Ok (tt, w') /\ Inv w' /\ frame w w' l (fun x => x = l_root w l) /\
      l_init w' l = true /\ (forall l', l' < n_lists w -> seq_of w' l' = seq_of w l') /\
      (forall e, e_val w' e = e_val w e) /\ (forall e, e_list w' e = e_list w e) /\ n_elems w' = n_elems w.
  Proof.
    intros HI Hl. unfold dl_lazyInit.
    destruct (l_init w l) eqn:E.
    - exists w. prims. rewrite E. split_and!; try done. split; try done. intros x ->. by left.
    - destruct (Clear_ok w l HI Hl) as (w' & H1 & H2 & H3 & H4 & H5 & H6 & H7 & H8 & H9).
      exists w'. unfold rd_l, bind at 1. rewrite E, (bind_ok _ _ _ _ _ H1). split_and!; try done.
      intros l' Hl'. destruct (decide (l' = l)) as [->|Hn]; [|by apply H6].
      destruct (i_repr _ HI l Hl) as (_ & _ & C & _). rewrite E in C. by rewrite C.
  Qed.

  (** What changes when the list [l] goes from one sequence to another and nothing else does. *)
  Record post w w' l (ids' : list nat) : Prop := {
    p_inv : Inv w';
    p_seq : seq_of w' l = ids';
    p_others : forall l', l' < n_lists w -> l' <> l -> seq_of w' l' = seq_of w l';
    p_nl : n_lists w' = n_lists w;
    p_ne : n_elems w <= n_elems w';
    p_live : same_live (dabs w) (dabs w') }.

  Lemma post_only w w' l ids' : post w w' l ids' -> only_list (dabs w) (dabs w') l ids'.
  Proof.
    intros P. split_and!; cbn.
    - apply P.
    - intros l'. by rewrite (p_nl _ _ _ _ P).
    - apply P.
  Qed.

  Lemma cyc_of w l : Inv w -> l < n_lists w -> l_init w l = true ->
    cyc (e_next w) (e_prev w) (l_root w l) (seq_of w l).
  Proof. intros HI Hl E. destruct (i_repr _ HI l Hl) as (_ & _ & C & _). by rewrite E in C. Qed.
  (** A list with elements has been initialised. *)
  Lemma init_of w l e : Inv w -> l < n_lists w -> e ∈ seq_of w l -> l_init w l = true.
  Proof.
    intros HI Hl He. destruct (i_repr _ HI l Hl) as (_ & _ & C & _).
    destruct (l_init w l); [done|]. rewrite C in He. by apply elem_of_nil in He.
  Qed.

  Lemma insertValue_ok w l v pre ps at_ :
    Inv w -> l < n_lists w -> l_init w l = true -> seq_of w l = pre ++ ps ->
    last (l_root w l :: pre) = Some at_ ->
    exists w', dl_insertValue l v (Some at_) w = Ok (Some (n_elems w), w') /\
      post w w' l (pre ++ n_elems w :: ps) /\ l_init w' l = true /\
      (forall x, x < n_elems w -> e_val w' x = e_val w x) /\ e_val w' (n_elems w) = v /\
      n_elems w' = S (n_elems w) /\ (forall l', l_root w' l' = l_root w l') /\
      (forall x, x < n_elems w -> e_list w' x = e_list w x) /\
      (forall l', l' <> l -> l_init w' l' = l_init w l').
  Proof.
    intros HI Hl Hi Hs Hat. set (e := n_elems w).
    pose proof (i_repr _ HI l Hl) as Hrep. pose proof (repr_nodup _ _ _ HI Hl Hrep) as Hnd.
    pose proof (cyc_of _ _ HI Hl Hi) as Hc. destruct Hrep as (A & B & C & D). rewrite Hs in *.
    destruct (head_snoc_some' (l_root w l) ps) as (b & Hb & Hbin).
    destruct (i_root _ HI l Hl) as [R1 R2].
    assert (Hlt : forall x, x ∈ l_root w l :: pre ++ ps -> x < e).
    { intros x Hx. apply elem_of_cons in Hx as [->|Hx]; [done|]. apply D, Hx. }
    assert (Hatin : at_ ∈ l_root w l :: pre) by by apply last_Some_elem_of.
    assert (Ha : at_ <> e). { assert (at_ < e); [|lia]. apply Hlt. mem. }
    assert (Hbe : b <> e). { assert (b < e); [|lia]. apply Hlt. mem. }
    assert (Hnx : e_next w at_ = Some b).
    { apply (cyc_split _ _ _ _ _ _ _ Hat Hb) in Hc. tauto. }
    assert (Hre : l_root w l <> e) by (unfold e; lia).
    eexists. split.
    { unfold dl_insertValue, dl_insert. exec. fold e. exec. reflexivity. }
    match goal with |- post _ ?x _ _ /\ _ => set (w' := x) end.
    assert (F : frame w w' l (fun x => x ∈ [at_; e; b])).
    { split; cbn; try done; try (unfold e; lia).
      - intros x Hx. notin Hx. fsimp. done.
      - intros x Hx. assert (x ∈ l_root w l :: pre ++ ps \/ x = e) as [Hin| ->] by mem.
        + apply elem_of_cons in Hin as [->|Hin]; [by left|]. right. left. apply D, Hin.
        + right. right. right. unfold e. lia.
      - intros l' Hn. fsimp. done. }
    destruct (frame_inv w w' l _ (pre ++ e :: ps) HI Hl F) as (H1 & H2 & H3).
    - cbn. fsimp. done.
    - split_and!; cbn.
      + fsimp. rewrite A, !app_length. cbn. lia.
      + apply NoDup_app in B as (B1 & B2 & B3). apply NoDup_app. split_and!; [done| |].
        * intros x Hx Hin. apply elem_of_cons in Hin as [->|Hin]; [|by apply (B2 x)].
          assert (e < e); [|lia]. apply Hlt. mem.
        * apply NoDup_cons. split; [|done]. intros Hin. assert (e < e); [|lia]. apply Hlt. mem.
      + rewrite Hi. eapply (cyc_insert _ _ _ _ _ pre ps at_ b e); [done| |done|done|exact Hc|..].
        * intros Hin. apply Hlt in Hin. lia.
        * by fsimp.
        * by fsimp.
        * intros x Hx. notin Hx. by fsimp.
        * by fsimp.
        * by fsimp.
        * intros x Hx. notin Hx. by fsimp.
      + intros x Hx. destruct (decide (x = e)) as [->|Hne]; [fsimp; split; [done|unfold e; lia]|]. fsimp.
        assert (x ∈ pre ++ ps) as Hx' by mem. destruct (D x Hx'). split; [done|unfold e; lia].
    - split_and!.
      + split; try done; cbn; [unfold e; lia|].
        eapply frame_live; [done|done|exact F|exact H2|exact H3|].
        intros x Hx. left. cbn. assert (x <> e) by (unfold e; lia). fsimp. split; [done|]. rewrite Hs. mem.
      + done.
      + intros x Hx. cbn. assert (x <> e) by (unfold e; lia). by fsimp.
      + cbn. by fsimp.
      + done.
      + done.
      + intros x Hx. cbn. assert (x <> e) by (unfold e; lia). by fsimp.
      + done.
  Qed.

  Lemma remove_ok w l pre e ps :
    Inv w -> l < n_lists w -> seq_of w l = pre ++ e :: ps ->
    exists w', dl_remove l (Some e) w = Ok (tt, w') /\ post w w' l (pre ++ ps) /\
      (forall x, e_val w' x = e_val w x) /\ n_elems w' = n_elems w /\
      e_next w' e = None /\ e_prev w' e = None /\ e_list w' e = None.
  Proof.
    intros HI Hl Hs.
    assert (Hi : l_init w l = true) by (eapply init_of; [done|done|]; rewrite Hs; mem).
    pose proof (i_repr _ HI l Hl) as Hrep. pose proof (repr_nodup _ _ _ HI Hl Hrep) as Hnd.
    pose proof (cyc_of _ _ HI Hl Hi) as Hc. destruct Hrep as (A & B & C & D). rewrite Hs in *.
    destruct (head_snoc_some' (l_root w l) ps) as (b & Hb & Hbin).
    destruct (last_cons_some (l_root w l) pre) as (a & Ha & Hain).
    destruct (i_root _ HI l Hl) as [R1 R2].
    pose proof (cyc_next _ _ _ _ _ _ Hc) as Hnx. rewrite Hb in Hnx.
    pose proof (cyc_prev _ _ _ _ _ _ Hc) as Hpv. rewrite Ha in Hpv.
    assert (Hae : a <> e /\ b <> e /\ l_root w l <> e).
    { rewrite NoDup_cons in Hnd. destruct Hnd as [Hnd1 Hnd]. apply NoDup_app in Hnd as (N1 & N2 & N3).
      apply NoDup_cons in N3 as [N3 N4]. specialize (N2 e). split_and!; intros HH; rewrite HH in *; mem. }
    destruct Hae as (Hae & Hbe & Hre).
    eexists. split.
    { unfold dl_remove. exec. reflexivity. }
    match goal with |- post _ ?x _ _ /\ _ => set (w' := x) end.
    assert (F : frame w w' l (fun x => x ∈ [a; e; b])).
    { split; cbn; try done; try lia.
      - intros x Hx. notin Hx. fsimp. done.
      - intros x Hx. assert (x ∈ l_root w l :: pre ++ e :: ps) as Hin by mem.
        apply elem_of_cons in Hin as [->|Hin]; [by left|]. right. left. apply D, Hin.
      - intros l' Hn. fsimp. done. }
    destruct (frame_inv w w' l _ (pre ++ ps) HI Hl F) as (H1 & H2 & H3).
    - cbn. fsimp. done.
    - split_and!; cbn.
      + fsimp. rewrite A, !app_length. cbn. lia.
      + clear -B. rewrite <- Permutation_middle, NoDup_cons in B. apply B.
      + rewrite Hi. eapply (cyc_remove _ _ _ _ _ pre ps a b e); [done|done|done|exact Hc|..].
        * by fsimp.
        * intros x Hx. notin Hx. by fsimp.
        * by fsimp.
        * intros x Hx. notin Hx. by fsimp.
      + intros x Hx. assert (x <> e).
        { intros ->. apply NoDup_app in B as (_ & N2 & N3). apply NoDup_cons in N3 as [N3 _]. specialize (N2 e). mem. }
        fsimp. apply D. mem.
    - split_and!; cbn; try (by fsimp); try done.
      split; try done; cbn.
      eapply frame_live; [done|done|exact F|exact H2|exact H3|].
      intros x Hx. rewrite Hs. destruct (decide (x = e)) as [->|Hne].
      + right. cbn. fsimp. split; [mem|done].
      + left. cbn. fsimp. split; [done|]. mem.
  Qed.

  Lemma elem_of_middle' (x e : nat) (l1 l2 : list nat) : x ∈ l1 ++ e :: l2 <-> x = e \/ x ∈ l1 ++ l2.
  Proof. mem. Qed.

  Lemma move_ok w l pre e ps pre' ps' at_ :
    Inv w -> l < n_lists w -> seq_of w l = pre ++ e :: ps ->
    pre ++ ps = pre' ++ ps' -> last (l_root w l :: pre') = Some at_ ->
    exists w', dl_move l (Some e) (Some at_) w = Ok (tt, w') /\ post w w' l (pre' ++ e :: ps') /\
      (forall x, e_val w' x = e_val w x) /\ n_elems w' = n_elems w.
  Proof.
    intros HI Hl Hs Hps Hat.
    assert (Hi : l_init w l = true) by (eapply init_of; [done|done|]; rewrite Hs; mem).
    pose proof (i_repr _ HI l Hl) as Hrep. pose proof (repr_nodup _ _ _ HI Hl Hrep) as Hnd.
    pose proof (cyc_of _ _ HI Hl Hi) as Hc. destruct Hrep as (A & B & C & D). rewrite Hs in *.
    destruct (head_snoc_some' (l_root w l) ps) as (b & Hb & Hbin).
    destruct (last_cons_some (l_root w l) pre) as (a & Ha & Hain).
    destruct (head_snoc_some' (l_root w l) ps') as (b' & Hb' & Hbin').
    assert (Hatin : at_ ∈ l_root w l :: pre') by by apply last_Some_elem_of.
    destruct (i_root _ HI l Hl) as [R1 R2].
    pose proof (cyc_next _ _ _ _ _ _ Hc) as Hnx. rewrite Hb in Hnx.
    pose proof (cyc_prev _ _ _ _ _ _ Hc) as Hpv. rewrite Ha in Hpv.
    assert (Hnr : NoDup (l_root w l :: pre ++ ps) /\ e ∉ l_root w l :: pre ++ ps).
    { rewrite NoDup_cons in Hnd. destruct Hnd as [Hnd1 Hnd]. apply NoDup_app in Hnd as (N1 & N2 & N3).
      apply NoDup_cons in N3 as [N3 N4]. split.
      - apply NoDup_cons. split; [mem|]. apply NoDup_app. split_and!; [done| |done].
        intros x Hx. specialize (N2 x Hx). mem.
      - specialize (N2 e). mem. }
    destruct Hnr as [Hnr Her].
    assert (Hin : forall x, x ∈ pre ++ ps <-> x ∈ pre' ++ ps') by (intros; by rewrite Hps).
    assert (a <> e) by mem. assert (b <> e) by mem.
    assert (Hat2 : at_ ∈ l_root w l :: pre ++ ps).
    { apply elem_of_cons in Hatin as [->|Hx]; [by left|]. right. apply Hin, elem_of_app. by left. }
    assert (Hb2 : b' ∈ l_root w l :: pre ++ ps).
    { apply elem_of_app in Hbin' as [Hx|Hx]; [right; apply Hin, elem_of_app; by right|].
      apply elem_of_list_singleton in Hx as ->. by left. }
    assert (at_ <> e) by (intros ->; done). assert (b' <> e) by (intros ->; done).
    (* the links after taking e out *)
    set (nx1 := <[a:=Some b]> (e_next w)). set (pv1 := <[b:=Some a]> (e_prev w)).
    assert (Hc1 : cyc nx1 pv1 (l_root w l) (pre ++ ps)).
    { eapply (cyc_remove _ _ _ _ _ pre ps a b e); [done|done|done|exact Hc|..]; unfold nx1, pv1.
      - by fsimp.
      - intros x Hx. notin Hx. by fsimp.
      - by fsimp.
      - intros x Hx. notin Hx. by fsimp. }
    assert (Hnx1 : nx1 at_ = Some b').
    { rewrite Hps in Hc1. apply (cyc_split _ _ _ _ _ _ _ Hat Hb') in Hc1. tauto. }
    eexists. split.
    { unfold dl_move. rewrite bool_decide_eq_false_2 by congruence.
      exec. rewrite ?Hnx, ?Hpv. fold nx1 pv1. exec. reflexivity. }
    match goal with |- post _ ?x _ _ /\ _ => set (w' := x) end.
    assert (F : frame w w' l (fun x => x ∈ [a; e; b; at_; b'])).
    { split; cbn; try done; try lia.
      - intros x Hx. notin Hx. unfold nx1, pv1. fsimp. done.
      - intros x Hx. assert (x ∈ l_root w l :: pre ++ e :: ps) as Hin'.
        { case_in Hx; [clear -Hain|clear|clear -Hbin|clear -Hat2|clear -Hb2]; mem. }
        apply elem_of_cons in Hin' as [->|Hin']; [by left|]. right. left. apply D, Hin'. }
    destruct (frame_inv w w' l _ (pre' ++ e :: ps') HI Hl F) as (H1' & H2' & H3').
    - done.
    - assert (Hp : pre' ++ e :: ps' ≡ₚ pre ++ e :: ps).
      { rewrite <- !Permutation_middle, Hps. done. }
      split_and!; cbn.
      + by rewrite A, Hp.
      + by rewrite Hp.
      + rewrite Hi. rewrite Hps in *. eapply (cyc_insert nx1 pv1 _ _ _ pre' ps' at_ b' e); [done|done|done|done|exact Hc1|..].
        * by fsimp.
        * by fsimp.
        * intros x Hx. notin Hx. by fsimp.
        * by fsimp.
        * by fsimp.
        * intros x Hx. notin Hx. by fsimp.
      + intros x Hx. apply D. by rewrite <- Hp.
    - split_and!; try done. split; try done; cbn; try lia.
      eapply frame_live; [done|done|exact F|exact H2'|exact H3'|].
      intros x Hx. rewrite Hs. left. split; [done|]. rewrite !elem_of_middle', Hps. done.
  Qed.

  Lemma frame_perm w w' l X ids' :
    Inv w -> l < n_lists w -> frame w w' l X -> repr w' l ids' -> ids' ≡ₚ seq_of w l ->
    (forall x, e_list w' x = e_list w x) -> post w w' l ids'.
  Proof.
    intros HI Hl F Hr Hp He.
    destruct (frame_inv w w' l _ ids' HI Hl F) as (H1 & H2 & H3); [rewrite He; by apply (i_root _ HI)|done|].
    split; try done; [apply F|apply F|].
    eapply frame_live; [done|done|exact F|exact H2|exact H3|].
    intros x Hx. left. split; [done|]. by rewrite Hp.
  Qed.

  Lemma swap_adj_ok w l pre a b ps :
    Inv w -> l < n_lists w -> seq_of w l = pre ++ a :: b :: ps ->
    exists w', (p <- rd (Some a) e_prev ;; wr_next p (Some b) ;;;
          n <- rd (Some b) e_next ;; wr_prev n (Some a) ;;;
          n <- rd (Some b) e_next ;; wr_next (Some a) n ;;;
          p <- rd (Some a) e_prev ;; wr_prev (Some b) p ;;;
          wr_prev (Some a) (Some b) ;;; wr_next (Some b) (Some a)) w = Ok (tt, w') /\
      post w w' l (pre ++ b :: a :: ps) /\ (forall x, e_val w' x = e_val w x) /\ n_elems w' = n_elems w.
  Proof.
    intros HI Hl Hs.
    assert (Hi : l_init w l = true) by (eapply init_of; [done|done|]; rewrite Hs; mem).
    pose proof (i_repr _ HI l Hl) as Hrep. pose proof (repr_nodup _ _ _ HI Hl Hrep) as Hnd.
    pose proof (cyc_of _ _ HI Hl Hi) as Hc. destruct Hrep as (A & B & C & D). rewrite Hs in *.
    destruct (head_snoc_some' (l_root w l) ps) as (q & Hq & Hqin).
    destruct (last_cons_some (l_root w l) pre) as (p & Hp & Hpin).
    assert (Hbn : e_next w b = Some q).
    { assert (Hc' := Hc). replace (pre ++ a :: b :: ps) with ((pre ++ [a]) ++ b :: ps) in Hc' by by rewrite <- app_assoc.
      rewrite (cyc_next _ _ _ _ _ _ Hc'). done. }
    assert (Hap : e_prev w a = Some p) by by rewrite (cyc_prev _ _ _ _ _ _ Hc).
    assert (Hd : a <> b /\ p <> a /\ p <> b /\ q <> a /\ q <> b).
    { rewrite app_comm_cons in Hnd. assert (Hnd' := Hnd). apply NoDup_app in Hnd as (N1 & N2 & N3).
      apply NoDup_cons in N3 as [N3 N4]. apply NoDup_cons in N4 as [N4 N5].
      pose proof (N2 p Hpin) as N6. pose proof (N2 (l_root w l)) as N7. split_and!; intros HH; rewrite HH in *; mem. }
    destruct Hd as (Hd1 & Hd2 & Hd3 & Hd4 & Hd5).
    eexists. split.
    { exec. rewrite ?Hap, ?Hbn. reflexivity. }
    match goal with |- post _ ?x _ _ /\ _ => set (w' := x) end.
    assert (F : frame w w' l (fun x => x ∈ [p; a; b; q])).
    { split; cbn; try done; try lia.
      - intros x Hx. notin Hx. fsimp. done.
      - intros x Hx. assert (x ∈ l_root w l :: pre ++ a :: b :: ps) as Hin by mem.
        apply elem_of_cons in Hin as [->|Hin]; [by left|]. right. left. apply D, Hin. }
    assert (HP : pre ++ b :: a :: ps ≡ₚ pre ++ a :: b :: ps) by (by rewrite (Permutation_swap a b)).
    split_and!; try done. eapply frame_perm; [done|done|exact F| |by rewrite Hs|done].
    split_and!; cbn.
    - by rewrite A, HP.
    - by rewrite HP.
    - rewrite Hi. eapply (cyc_swap_adj _ _ _ _ _ pre ps p q a b); [done|done|done|exact Hc|..]; try (by fsimp).
      + intros x Hx. notin Hx. by fsimp.
      + intros x Hx. notin Hx. by fsimp.
    - intros x Hx. apply D. by rewrite <- HP.
  Qed.

  (** The last case of Swap, for either order of the two elements. *)
  Definition swap_far (a b : option nat) : M (dworld T) unit :=
    p <- rd a e_prev ;; wr_next p b ;;;
    n <- rd a e_next ;; wr_prev n b ;;;
    p <- rd b e_prev ;; wr_next p a ;;;
    n <- rd b e_next ;; wr_prev n a ;;;
    bp <- rd b e_prev ;; ap <- rd a e_prev ;; wr_prev a bp ;;; wr_prev b ap ;;;
    bn <- rd b e_next ;; an <- rd a e_next ;; wr_next a bn ;;; wr_next b an.

  Lemma swap_far_ok w l pre a mid b ps x y :
    Inv w -> l < n_lists w -> seq_of w l = pre ++ a :: mid ++ b :: ps -> mid <> [] ->
    (x = a /\ y = b) \/ (x = b /\ y = a) ->
    exists w', swap_far (Some x) (Some y) w = Ok (tt, w') /\
      post w w' l (pre ++ b :: mid ++ a :: ps) /\ (forall x, e_val w' x = e_val w x) /\ n_elems w' = n_elems w.
  Proof.
    intros HI Hl Hs Hmid Hxy.
    assert (Hi : l_init w l = true) by (eapply init_of; [done|done|]; rewrite Hs; mem).
    pose proof (i_repr _ HI l Hl) as Hrep. pose proof (repr_nodup _ _ _ HI Hl Hrep) as Hnd.
    pose proof (cyc_of _ _ HI Hl Hi) as Hc. destruct Hrep as (A & B & C & D). rewrite Hs in *.
    destruct (head_snoc_some' (l_root w l) ps) as (q & Hq & Hqin).
    destruct (last_cons_some (l_root w l) pre) as (p & Hp & Hpin).
    assert (exists m1, head mid = Some m1 /\ m1 ∈ mid) as (m1 & Hm1 & Hm1in).
    { destruct mid as [|m1 mid]; [done|]. exists m1. split; [done|]. by left. }
    assert (exists m2, last mid = Some m2 /\ m2 ∈ mid) as (m2 & Hm2 & Hm2in).
    { destruct (last mid) as [m2|] eqn:E; [|by apply last_None in E]. exists m2. split; [done|]. by apply last_Some_elem_of. }
    assert (Hc' := Hc). replace (pre ++ a :: mid ++ b :: ps) with ((pre ++ a :: mid) ++ b :: ps) in Hc' by by rewrite <- app_assoc.
    assert (Hbn : e_next w b = Some q) by by rewrite (cyc_next _ _ _ _ _ _ Hc').
    assert (Hbp : e_prev w b = Some m2).
    { rewrite (cyc_prev _ _ _ _ _ _ Hc'). apply last_Some in Hm2 as [mid' ->].
      replace (l_root w l :: pre ++ a :: mid' ++ [m2]) with ((l_root w l :: pre ++ a :: mid') ++ [m2]) by (cbn; by rewrite <- app_assoc).
      by rewrite last_snoc. }
    assert (Hap : e_prev w a = Some p) by by rewrite (cyc_prev _ _ _ _ _ _ Hc).
    assert (Han : e_next w a = Some m1).
    { rewrite (cyc_next _ _ _ _ _ _ Hc). by destruct mid. }
    assert (Hd : a <> b /\ p <> a /\ p <> b /\ q <> a /\ q <> b /\ m1 <> a /\ m1 <> b /\ m2 <> a /\ m2 <> b /\
                 p <> m2 /\ m1 <> q).
    { rewrite app_comm_cons in Hnd. apply NoDup_app in Hnd as (N1 & N2 & N3).
      apply NoDup_cons in N3 as [N3 N4]. apply NoDup_app in N4 as (N5 & N6 & N7). apply NoDup_cons in N7 as [N7 N8].
      pose proof (N2 p Hpin) as O1. pose proof (N2 (l_root w l) (elem_of_list_here _ _)) as O2.
      pose proof (N6 m1 Hm1in) as O3. pose proof (N6 m2 Hm2in) as O4.
      clear -O1 O2 O3 O4 N3 N7 Hm1in Hm2in Hqin. apply elem_of_app in Hqin as [Hq|Hq%elem_of_list_singleton].
      - split_and!; intros ->; clear O2.
        + clear -N3; mem. + clear -O1; mem. + clear -O1; mem. + clear -N3 Hq; mem. + clear -N7 Hq; mem.
        + clear -N3 Hm1in; mem. + clear -O3; mem. + clear -N3 Hm2in; mem. + clear -O4; mem.
        + clear -O1 Hm2in; mem. + clear -O3 Hq; mem.
      - subst q. split_and!; intros HH.
        + subst. clear -N3; mem. + subst. clear -O1; mem. + subst. clear -O1; mem. + rewrite HH in O2. clear -O2; mem.
        + rewrite HH in O2. clear -O2; mem.
        + subst. clear -N3 Hm1in; mem. + subst. clear -O3; mem. + subst. clear -N3 Hm2in; mem. + subst. clear -O4; mem.
        + subst. clear -O1 Hm2in; mem. + rewrite HH in Hm1in. clear -O2 Hm1in; mem. }
    destruct Hd as (Hd1 & Hd2 & Hd3 & Hd4 & Hd5 & Hd6 & Hd7 & Hd8 & Hd9 & Hd10 & Hd11).
    assert (HP : pre ++ b :: mid ++ a :: ps ≡ₚ pre ++ a :: mid ++ b :: ps).
    { apply Permutation_app_head. rewrite <- !Permutation_middle. by rewrite (Permutation_swap a b). }
    assert (Hfin : forall w', 
      (forall z, e_next w' z = (<[b:=Some m1]> (<[a:=Some q]> (<[m2:=Some a]> (<[p:=Some b]> (e_next w))))) z) ->
      (forall z, e_prev w' z = (<[b:=Some p]> (<[a:=Some m2]> (<[q:=Some a]> (<[m1:=Some b]> (e_prev w))))) z) ->
      (forall z, e_list w' z = e_list w z) -> l_root w' = l_root w -> l_len w' = l_len w -> l_init w' = l_init w ->
      n_elems w' = n_elems w -> n_lists w' = n_lists w ->
      post w w' l (pre ++ b :: mid ++ a :: ps)).
    { intros w' W1 W2 W3 W4 W5 W6 W7 W8.
      assert (F : frame w w' l (fun x => x ∈ [p; a; b; q; m1; m2])).
      { split; rewrite ?W4, ?W5, ?W6, ?W7, ?W8; try done; try lia.
        - intros z Hz. rewrite W1, W2, W3. notin Hz. fsimp. done.
        - intros z Hz. assert (z ∈ l_root w l :: pre ++ a :: mid ++ b :: ps) as Hin by mem.
          apply elem_of_cons in Hin as [->|Hin]; [by left|]. right. left. apply D, Hin. }
      eapply frame_perm; [done|done|exact F| |by rewrite Hs|done].
      split_and!.
      - by rewrite W5, A, HP.
      - by rewrite HP.
      - rewrite W6, W4, Hi. eapply (cyc_swap_far _ _ _ _ _ pre mid ps p m1 m2 q a b); [done|done|done|done|done|exact Hc|..];
          try (rewrite ?W1, ?W2; by fsimp).
        + intros z Hz. rewrite W1. notin Hz. by fsimp.
        + intros z Hz. rewrite W2. notin Hz. by fsimp.
      - intros z Hz. rewrite W3, W7. apply D. by rewrite <- HP. }
    destruct Hxy as [[-> ->]|[-> ->]].
    - eexists. split.
      { unfold swap_far. exec. rewrite ?Hbp, ?Hap, ?Hbn, ?Han. reflexivity. }
      split_and!; try done. apply Hfin; try done.
    - eexists. split.
      { unfold swap_far. exec. rewrite ?Hbp, ?Hap, ?Hbn, ?Han. reflexivity. }
      split_and!; try done. apply Hfin; try done; cbn.
      + intros z. destruct (decide (z = a)) as [->|]; [by fsimp|]. destruct (decide (z = b)) as [->|]; [by fsimp|].
        destruct (decide (z = p)) as [->|]; [by fsimp|]. destruct (decide (z = m2)) as [->|]; [by fsimp|]. by fsimp.
      + intros z. destruct (decide (z = a)) as [->|]; [by fsimp|]. destruct (decide (z = b)) as [->|]; [by fsimp|].
        destruct (decide (z = q)) as [->|]; [by fsimp|]. destruct (decide (z = m1)) as [->|]; [by fsimp|]. by fsimp.
  Qed.
End proofs.
