(** Proofs about Range of lhashmap with callbacks that change the map. *)
From Coq Require Import ZifyBool ZifyNat.
From Verif Require Import Base Chain GoMap GoMapSpec DllistModel DllistSpec DllistProofs DllistSteps DllistSteps2 DllistSteps3 DllistHistory.
From Verif Require Import LHashMapModel LHashMapSpec LHashMapProofs LHashMapIterSpec.

(** * Which cells the calls of dllist write *)
Section footprint.
  Context {T : Type}.
  Implicit Types (d : dworld T).
  Lemma MoveToFront_fp d l e u d' : l_init d l = true -> dl_MoveToFront l (Some e) d = Ok (u, d') ->
    (forall x, e_list d' x = e_list d x) /\ (forall x, e_val d' x = e_val d x) /\ (forall l', l_root d' l' = l_root d l') /\
    n_elems d' = n_elems d /\
    (forall x, x <> e -> x <> l_root d l -> e_prev d e <> Some x -> e_next d' x = e_next d x).
  Proof.
    intros Hi. unfold dl_MoveToFront, rd at 1, bind at 1. case_bool_decide; [|intros [= <- <-]; done].
    unfold root_of, rd, bind at 1 2. case_bool_decide as Hn; [intros [= <- <-]; done|].
    rewrite (bind_ok _ _ _ _ _ (lazyInit_noop _ _ Hi)). unfold dl_move. case_bool_decide as He; [intros [= <- <-]; done|].
    assert (Hr : l_root d l <> e) by congruence.
    prims. destruct (e_prev d e) as [p|] eqn:Ep; [|done]. cbn. destruct (<[p:=e_next d e]> (e_next d) e) as [n|] eqn:En; [|done]. cbn.
    fsimp. cbn. destruct (<[p:=e_next d e]> (e_next d) (l_root d l)) as [n2|] eqn:En2; cbn; fsimp; cbn; [|done].
    intros [= <- <-]. cbn. split_and!; try done. intros x Hx1 Hx2 Hx3. by fsimp.
  Qed.
  Lemma Remove_fp d l e u d' : dl_Remove l (Some e) d = Ok (u, d') ->
    (forall x, x <> e -> e_list d' x = e_list d x) /\ (forall x, e_val d' x = e_val d x) /\ (forall l', l_root d' l' = l_root d l') /\
    n_elems d' = n_elems d /\
    (forall x, x <> e -> e_prev d e <> Some x -> e_next d' x = e_next d x).
  Proof.
    unfold dl_Remove, rd at 1, bind at 1. case_bool_decide; [|prims; intros [= <- <-]; done].
    unfold dl_remove. prims. destruct (e_prev d e) as [p|] eqn:Ep; [|done]. cbn.
    destruct (<[p:=e_next d e]> (e_next d) e) as [n|] eqn:En; [|done]. cbn.
    intros [= <- <-]. cbn. split_and!; try done; intros x Hx1; [by fsimp|]. intros Hx2. by fsimp.
  Qed.
  Lemma PushFront_fp d l v u d' : l_root d l < n_elems d -> dl_PushFront l v d = Ok (u, d') ->
    (forall x, x < n_elems d -> e_list d' x = e_list d x) /\ (forall x, x < n_elems d -> e_val d' x = e_val d x) /\
    (forall l', l_root d' l' = l_root d l') /\ n_elems d' = S (n_elems d) /\ e_val d' (n_elems d) = v /\
    (forall x, x < n_elems d -> x <> l_root d l -> e_next d' x = e_next d x).
  Proof.
    intros Hr. unfold dl_PushFront. destruct (dl_lazyInit l d) as [[[] d1]| |] eqn:Hz; [|by unfold bind; rewrite Hz..].
    rewrite (bind_ok _ _ _ _ _ Hz).
    assert (F : l_root d1 = l_root d /\ n_elems d1 = n_elems d /\ e_list d1 = e_list d /\ e_val d1 = e_val d /\
      (forall x, x <> l_root d l -> e_next d1 x = e_next d x)).
    { revert Hz. unfold dl_lazyInit, dl_Clear. prims. destruct (l_init d l); intros [= <-]; [done|]. cbn. split_and!; try done.
      intros x Hx. by fsimp. }
    destruct F as (F1 & F2 & F3 & F4 & F5). rewrite <- F1 in *. rewrite <- F2 in *. rewrite <- F3, <- F4. clear Hz.
    unfold dl_insertValue, dl_insert. exec.
    destruct (e_next d1 (l_root d1 l)) as [n|] eqn:En; [|exec; done]. exec.
    intros [= <- <-]. cbn. split_and!; try done; [intros x Hx; by fsimp|intros x Hx; by fsimp|by fsimp|].
    intros x Hx1 Hx2. fsimp. by apply F5.
  Qed.
End footprint.

(** * Lists *)
Section lists.
  Context {A : Type}.
  Implicit Types (l pre post : list A).
  Lemma lookup_to_front pre x post i :
    (x :: pre ++ post) !! to_front (length pre) i = (pre ++ x :: post) !! i.
  Proof.
    unfold to_front. destruct (Nat.eqb_spec i (length pre)) as [->|Hne]; [by rewrite list_lookup_middle|].
    destruct (Nat.ltb_spec i (length pre)).
    - change ((pre ++ post) !! i = (pre ++ x :: post) !! i). by rewrite !lookup_app_l by lia.
    - destruct i as [|i]; [lia|]. change ((pre ++ post) !! i = (pre ++ x :: post) !! S i). rewrite !lookup_app_r by lia.
      destruct (S i - length pre) as [|n] eqn:E; [lia|]. cbn. f_equal. lia.
  Qed.
  Lemma lookup_removed pre x post i : i <> length pre ->
    (pre ++ post) !! (if Nat.ltb (length pre) i then i - 1 else i) = (pre ++ x :: post) !! i.
  Proof.
    intros Hne. destruct (Nat.ltb_spec (length pre) i).
    - rewrite !lookup_app_r by lia. destruct (i - length pre) as [|n] eqn:E; [lia|]. cbn. f_equal. lia.
    - by rewrite !lookup_app_l by lia.
  Qed.
End lists.

Section proofs.
  Context {K V : Type} (eqb : K -> K -> bool) (upd : bool) (zero_k : K) (zero : V).
  Context (P : per eqb).
  Implicit Types (w : lhm K V) (k : K) (v : V) (d : dworld (option nat)) (s : list (K * V)) (x : nat) (y : K * V) (p : cursor K V).
  Notation kv := (kv_of zero_k zero).
  Notation lab := (labs zero_k zero).
  Notation mlookup := (GoMap.mlookup eqb).
  Notation LInv := (LInv eqb zero_k zero).
  Notation exec := (lh_exec eqb upd zero).
  Notation steps := (lh_steps eqb upd zero).
  Notation reached := (lh_reached eqb upd zero_k zero).
  Notation position := (position eqb).
  Notation shift := (shift eqb).
  Notation root w := (l_root (lh_d w) (lh_l w)).

  (** * Positions *)
  Lemma pos_some k s j y : position k s = Some j -> s !! j = Some y -> eqb y.1 k = true.
  Proof.
    revert j. induction s as [|z s IH]; intros j; cbn; [done|]. destruct (eqb z.1 k) eqn:E; [by intros [= <-] [= ->]|].
    destruct (position k s) as [j'|]; cbn; [|done]. intros [= <-]. cbn. by apply IH.
  Qed.
  Lemma pos_lt k s j : position k s = Some j -> j < length s.
  Proof.
    revert j. induction s as [|z s IH]; intros j; cbn; [done|]. destruct (eqb z.1 k); [intros [= <-]; lia|].
    destruct (position k s) as [j'|]; cbn; [|done]. intros [= <-]. specialize (IH j' eq_refl). lia.
  Qed.
  Lemma pos_none k s : absent eqb s k -> position k s = None.
  Proof.
    induction s as [|z s IH]; intros H; cbn; [done|]. rewrite (H z) by (by left). rewrite IH; [done|].
    intros y Hy. apply H. by right.
  Qed.
  Lemma pos_split k k' v pre post : one_each eqb (pre ++ (k', v) :: post) -> eqb k' k = true ->
    position k (pre ++ (k', v) :: post) = Some (length pre).
  Proof.
    intros H1 Hk. assert (Ha : absent eqb pre k).
    { intros y Hy. pose proof (one_each_cons eqb P _ _ _ k H1 Hk) as Ha. apply Ha. apply elem_of_app. by left. }
    clear H1. induction pre as [|z pre IH]; cbn; [by rewrite Hk|]. rewrite (Ha z) by (by left).
    rewrite IH; [done|]. intros y Hy. apply Ha. by right.
  Qed.

  (** * What calls leave alone *)
  Record calm w w' : Prop := {
    c_l : lh_l w' = lh_l w;
    c_root : root w' = root w;
    c_ne : n_elems (lh_d w) <= n_elems (lh_d w');
    c_nent : lh_nent w <= lh_nent w';
    c_cells : forall x, x < n_elems (lh_d w) -> x ∉ lh_ids w -> x <> root w ->
      e_next (lh_d w') x = e_next (lh_d w) x /\ e_list (lh_d w') x = e_list (lh_d w) x /\ e_val (lh_d w') x = e_val (lh_d w) x;
    c_ids : forall x, x ∈ lh_ids w' ->
      (x ∈ lh_ids w /\ e_val (lh_d w') x = e_val (lh_d w) x) \/
      (n_elems (lh_d w) <= x /\ exists q, e_val (lh_d w') x = Some q /\ lh_nent w <= q);
    c_ent : forall q, q < lh_nent w -> (forall x, x ∈ lh_ids w -> e_val (lh_d w) x <> Some q) -> lh_ent w' q = lh_ent w q }.
  Lemma calm_refl w : calm w w.
  Proof. split; try done; auto. Qed.
  Lemma prev_in w x : LInv w -> x ∈ lh_ids w -> exists z, e_prev (lh_d w) x = Some z /\ (z = root w \/ z ∈ lh_ids w).
  Proof.
    intros L Hx. pose proof (li_inv _ _ _ _ L) as HI. pose proof (li_l _ _ _ _ L) as Hl.
    pose proof (init_of _ _ _ HI Hl Hx) as Hi. pose proof (cyc_of _ _ HI Hl Hi) as Hc. fold (lh_ids w) in Hc.
    apply elem_of_list_split in Hx as (pre & post & Hs). rewrite Hs in Hc. rewrite (cyc_prev _ _ _ _ _ _ Hc).
    destruct (last_cons_some (root w) pre) as (z & -> & Hz). exists z. split; [done|]. rewrite Hs. apply elem_of_cons in Hz as [->|Hz]; [by left|].
    right. apply elem_of_app. by left.
  Qed.
  Lemma front_calm w x d : LInv w -> x ∈ lh_ids w -> lh_ids (with_d w d) ⊆ lh_ids w ->
    ld (dl_MoveToFront (lh_l w) (Some x)) w = Ok (tt, with_d w d) -> calm w (with_d w d).
  Proof.
    intros L Hx Hsub H. pose proof (init_of _ _ _ (li_inv _ _ _ _ L) (li_l _ _ _ _ L) Hx) as Hi.
    unfold ld in H. destruct (dl_MoveToFront _ _ _) as [[u d']| |] eqn:E; [|done..]. injection H as -> ->.
    destruct (MoveToFront_fp _ _ _ _ _ Hi E) as (F1 & F2 & F3 & F4 & F5). destruct (prev_in w x L Hx) as (z & Hz & Hzin).
    split; cbn; try done.
    - lia.
    - intros y Hy Hny Hry. split_and!; [|by rewrite F1|by rewrite F2]. apply F5; [congruence|done|]. rewrite Hz. intros [= ->].
      by destruct Hzin.
    - intros y Hy. left. rewrite F2. split; [by apply Hsub|done].
  Qed.

  Lemma map_front_sub (x : nat) pre post ids : ids = pre ++ x :: post -> x :: pre ++ post ⊆ ids.
  Proof. intros ->. intros y. rewrite elem_of_cons, !elem_of_app, elem_of_cons. tauto. Qed.
  Lemma exec_Load w k r w' : LInv w -> exec (LLoad k) w = Ok (r, w') ->
    calm w w' /\
    match mlookup (lh_m w) k with
    | Some x => exists pre post, lh_ids w = pre ++ x :: post /\ lh_ids w' = x :: pre ++ post
    | None => lh_ids w' = lh_ids w
    end.
  Proof.
    intros L. cbn. unfold lmap, lh_Load, tab_get, bind at 1 2. destruct (mlookup (lh_m w) k) as [x|] eqn:H; [|intros [= <- <-]; split; [apply calm_refl|done]].
    destruct (lookup_hit _ _ _ w k x L H) as [Hx _]. pose proof Hx as Hx'. apply elem_of_list_split in Hx' as (pre & post & Hs).
    destruct (MoveToFront_w eqb zero_k zero w x pre post L Hs) as (d & H1 & L1 & I1 & K1).
    unfold the_list, bind at 1. rewrite (bind_ok _ _ _ _ _ H1).
    destruct (li_ptr _ _ _ _ L1 x) as (q & Hq & _); [rewrite I1; by left|].
    assert (H2 : ld (rd (Some x) e_val) (with_d w d) = Ok (Some q, with_d w d)) by (unfold ld, rd; by rewrite Hq).
    rewrite (bind_ok _ _ _ _ _ H2). unfold rd_ent, bind, ret. intros [= <- <-]. split; [|by exists pre, post].
    apply front_calm with x; [done|done| |done]. rewrite I1. by apply map_front_sub.
  Qed.
  Lemma exec_Store w k v r w' : LInv w -> exec (LStore k v) w = Ok (r, w') ->
    calm w w' /\
    match mlookup (lh_m w) k with
    | Some x => exists pre post, lh_ids w = pre ++ x :: post /\ lh_ids w' = x :: pre ++ post
    | None => exists x, lh_ids w' = x :: lh_ids w
    end.
  Proof.
    intros L. destruct (lh_step eqb upd zero_k zero P w (LStore k v) L) as (r0 & w0 & E0 & L0 & _). rewrite E0. intros [= -> ->].
    revert E0. cbn. unfold lmap, lh_Store, tab_get, bind at 1 2. destruct (mlookup (lh_m w) k) as [x|] eqn:H.
    - destruct (lookup_hit _ _ _ w k x L H) as [Hx _]. destruct (li_ptr _ _ _ _ L x Hx) as (q & Hq & Hq').
      destruct (LInv_write _ zero_k zero w x q v L Hx Hq) as (L1 & I1 & K1 & K1'). set (w1 := mk_lhm _ _ _ _ _) in *.
      pose proof Hx as Hx'. apply elem_of_list_split in Hx' as (pre & post & Hs).
      destruct (MoveToFront_w eqb zero_k zero w1 x pre post L1) as (d & H2 & L2 & I2 & K2); [by rewrite I1|].
      assert (H3 : ld (rd (Some x) e_val) w = Ok (Some q, w)) by (unfold ld, rd; rewrite Hq; by destruct w).
      rewrite (bind_ok _ _ _ _ _ H3). unfold wr_ent_v, bind at 1. fold w1. unfold the_list, bind at 1. rewrite H2. intros [= <- <-].
      split; [|by exists pre, post].
      assert (C : calm w1 (with_d w1 d)).
      { apply front_calm with x; [done|by rewrite I1| |done]. rewrite I2. apply map_front_sub. by rewrite I1. }
      destruct C as [C1 C2 C3 C4 C5 C6 C7]. split; try done. intros q' Hq'' Hno. change (lh_ent w1 q' = lh_ent w q'). cbn.
      apply fn_lookup_insert_ne. intros <-. by apply (Hno x).
    - unfold new_ent, the_list, bind at 1 2. cbn [lh_l]. set (w1 := mk_lhm _ _ _ _ _).
      destruct (PushFront_ok (lh_d w) (lh_l w) (Some (lh_nent w)) (li_inv _ _ _ _ L) (li_l _ _ _ _ L)) as (d & G1 & G2 & _).
      rewrite (bind_ok _ _ _ _ _ (ld_ok _ w1 _ _ G1)). cbn. intros [= <- <-].
      destruct (i_root _ (li_inv _ _ _ _ L) _ (li_l _ _ _ _ L)) as [Hr _].
      destruct (PushFront_fp _ _ _ _ _ Hr G1) as (F1 & F2 & F3 & F4 & F5 & F6).
      assert (Hids : seq_of d (lh_l w) = n_elems (lh_d w) :: lh_ids w) by apply G2.
      split; [|by exists (n_elems (lh_d w))]. split; cbn; try done; try lia.
      + intros x H1 H2 H3. split_and!; auto.
      + unfold lh_ids at 1. cbn. rewrite Hids. intros x Hx. apply elem_of_cons in Hx as [->|Hx].
        * right. split; [done|]. exists (lh_nent w). split; [done|lia].
        * left. split; [done|]. apply F2. by apply (ids_known eqb zero_k zero w x L).
      + intros q Hq _. apply fn_lookup_insert_ne. lia.
  Qed.
  Lemma exec_Remove w k r w' : LInv w -> exec (LRemove k) w = Ok (r, w') ->
    calm w w' /\
    match mlookup (lh_m w) k with
    | Some x => e_list (lh_d w') x = None /\ exists pre post, lh_ids w = pre ++ x :: post /\ lh_ids w' = pre ++ post
    | None => lh_ids w' = lh_ids w
    end.
  Proof.
    intros L. cbn. unfold lmap, lh_Remove, tab_get, bind at 1 2. destruct (mlookup (lh_m w) k) as [x|] eqn:H; [|intros [= <- <-]; split; [apply calm_refl|done]].
    destruct (lookup_hit _ _ _ w k x L H) as [Hx _]. pose proof Hx as Hx'. apply elem_of_list_split in Hx' as (pre & post & Hs).
    destruct (remove_ok (lh_d w) (lh_l w) pre x post (li_inv _ _ _ _ L) (li_l _ _ _ _ L) Hs) as (d & R1 & R2 & _ & _ & _ & _ & R3).
    assert (H1 : dl_Remove (lh_l w) (Some x) (lh_d w) = Ok (e_val d x, d)).
    { unfold dl_Remove, rd at 1, bind at 1. destruct (inv_elem _ _ _ (li_inv _ _ _ _ L) (li_l _ _ _ _ L) Hx) as [El _].
      rewrite El, bool_decide_eq_true_2 by done. by rewrite (bind_ok _ _ _ _ _ R1). }
    unfold the_list, bind at 1. rewrite (bind_ok _ _ _ _ _ (ld_ok _ w _ _ H1)). cbn. intros [= <- <-].
    assert (Hids : seq_of d (lh_l w) = pre ++ post) by apply R2.
    destruct (Remove_fp _ _ _ _ _ H1) as (F1 & F2 & F3 & F4 & F5). destruct (prev_in w x L Hx) as (z & Hz & Hzin).
    split; [|split; [done|by exists pre, post]]. split; cbn; try done; try lia.
    - intros y H2 H3 H4. assert (y <> x) by congruence. split_and!; [|by apply F1|by apply F2]. apply F5; [done|]. rewrite Hz. intros [= ->].
      by destruct Hzin.
    - unfold lh_ids at 1. cbn. rewrite Hids. intros y Hy. left. split; [|by apply F2]. rewrite Hs.
      apply elem_of_app in Hy as [Hy|Hy]; apply elem_of_app; [by left|]. right. by right.
  Qed.
  Lemma exec_Clear w r w' : LInv w -> exec LClear w = Ok (r, w') ->
    calm w w' /\ lh_ids w' = [] /\ (forall x, x <> root w -> e_next (lh_d w') x = e_next (lh_d w) x) /\
    (forall x, e_list (lh_d w') x = e_list (lh_d w) x) /\ (forall x, e_val (lh_d w') x = e_val (lh_d w) x) /\ lh_ent w' = lh_ent w.
  Proof.
    intros L. destruct (Clear_ok (lh_d w) (lh_l w) (li_inv _ _ _ _ L) (li_l _ _ _ _ L)) as (d & H1 & HI & F & _ & S1 & _ & V1 & V2 & N1).
    cbn [lh_exec]. assert (E : lh_Clear w = Ok (tt, mk_lhm d (lh_ent w) (lh_nent w) [] (lh_l w))).
    { unfold lh_Clear, set_tab, the_list, bind at 1 2. cbn [lh_l].
      by rewrite (bind_ok _ _ _ _ _ (ld_ok _ (mk_lhm (lh_d w) (lh_ent w) (lh_nent w) [] (lh_l w)) _ _ H1)). }
    rewrite (lmap_ok _ _ _ _ _ E). intros [= <- <-].
    assert (FN : forall x, x <> root w -> e_next d x = e_next (lh_d w) x) by (intros x Hx; by apply (f_cells _ _ _ _ F)).
    split; [|done]. split; cbn; try done; try lia.
    - apply (f_root _ _ _ _ F).
    - intros x _ _ Hx. auto.
    - unfold lh_ids at 1. cbn. rewrite S1. intros x Hx. by apply elem_of_nil in Hx.
  Qed.
  Lemma exec_same w c r w' : LInv w -> (c = LLen \/ exists f, c = LRange f) -> exec c w = Ok (r, w') -> w' = w.
  Proof.
    intros L [->|[f ->]]; [by intros [= <- <-]|].
    cbn [lh_exec]. assert (E : lh_Range (S (n_elems (lh_d w))) (note f) [] w = lh_fold (note f) [] (lab w) w).
    { apply (Range_ok eqb zero_k zero (fun _ => True)); [done|done| |].
      - intros y a r1 w1 w2 _ L1 Hi Hs Hx H. unfold note, ret in H. by injection H as <- <-.
      - pose proof (inv_bound (lh_d w) (lh_l w) (li_inv _ _ _ _ L) (li_l _ _ _ _ L)). unfold lh_ids. lia. }
    rewrite note_fold in E. rewrite (lmap_ok _ _ _ _ _ E). by intros [= <- <-].
  Qed.

  Lemma exec_calm w c r w' : LInv w -> exec c w = Ok (r, w') -> calm w w'.
  Proof.
    intros L E. destruct c; [by eapply exec_Load|by eapply exec_Store|by eapply exec_Remove| | |by eapply exec_Clear].
    - rewrite (exec_same w LLen r w' L) by (done || by left). apply calm_refl.
    - rewrite (exec_same w (LRange f) r w' L) by (done || (right; by eexists)). apply calm_refl.
  Qed.

  (** * Elements of before a Clear *)
  Fixpoint nexts d (rt x : nat) (ids : list nat) : Prop :=
    match ids with [] => e_next d x = Some rt | z :: ids => e_next d x = Some z /\ nexts d rt z ids end.
  Definition aside w (x : nat) : Prop := x < n_elems (lh_d w) /\ x ∉ lh_ids w /\ x <> root w.
  Definition old w (x : nat) : Prop := aside w x /\ e_list (lh_d w) x = Some (lh_l w) /\
    exists q, e_val (lh_d w) x = Some q /\ q < lh_nent w /\ forall z, z ∈ lh_ids w -> e_val (lh_d w) z <> Some q.
  Lemma aside_calm w w' x : calm w w' -> aside w x -> aside w' x.
  Proof.
    intros C (H1 & H2 & H3). split_and!.
    - pose proof (c_ne _ _ C). lia.
    - intros Hx. apply (c_ids _ _ C) in Hx as [[Hx _]|[Hx _]]; [done|lia].
    - by rewrite (c_root _ _ C).
  Qed.
  Lemma old_calm w w' x : calm w w' -> old w x -> old w' x /\ kv w' x = kv w x /\ e_next (lh_d w') x = e_next (lh_d w) x.
  Proof.
    intros C (Ha & Hl & q & Hq & Hlt & Hno). destruct Ha as (H1 & H2 & H3). destruct (c_cells _ _ C x H1 H2 H3) as (N & Li & Va).
    split_and!; [|unfold kv_of; rewrite Va, Hq; by apply (c_ent _ _ C)|done]. split; [by eapply aside_calm|]. split; [by rewrite Li, (c_l _ _ C)|].
    exists q. rewrite Va. split; [done|]. split; [pose proof (c_nent _ _ C); lia|]. intros z Hz.
    apply (c_ids _ _ C) in Hz as [[Hz ->]|[_ (q' & -> & Hq')]]; [by apply Hno|]. intros [= ->]. lia.
  Qed.
  Lemma nexts_calm w w' x ids : calm w w' -> (forall z, z ∈ x :: ids -> old w z) -> nexts (lh_d w) (root w) x ids ->
    nexts (lh_d w') (root w') x ids.
  Proof.
    intros C. revert x. induction ids as [|z ids IH]; intros x Ho; cbn.
    - destruct (old_calm w w' x C) as (_ & _ & ->); [apply Ho; by left|]. by rewrite (c_root _ _ C).
    - destruct (old_calm w w' x C) as (_ & _ & ->); [apply Ho; by left|]. intros [-> H]. split; [done|]. apply IH; [|done].
      intros u Hu. apply Ho. by right.
  Qed.

  (** * Where the loop stands *)
  Definition link w p (x : nat) : Prop :=
    match p with
    | At i => lh_ids w !! i = Some x
    | Gone => aside w x /\ e_list (lh_d w) x = None
    | Cleared r => exists ids, (forall z, z ∈ x :: ids -> old w z) /\ nexts (lh_d w) (root w) x ids /\ map (kv w) ids = r
    end.
  Lemma ids_nexts w pre x post : LInv w -> lh_ids w = pre ++ x :: post -> nexts (lh_d w) (root w) x post.
  Proof.
    intros L. revert pre x. induction post as [|z post IH]; intros pre x Hs; pose proof (li_inv _ _ _ _ L) as HI; pose proof (li_l _ _ _ _ L) as Hl.
    - assert (Hx : x ∈ lh_ids w) by (rewrite Hs; mem). pose proof (cyc_of _ _ HI Hl (init_of _ _ _ HI Hl Hx)) as Hc. fold (lh_ids w) in Hc.
      rewrite Hs in Hc. apply cyc_next in Hc. done.
    - assert (Hx : x ∈ lh_ids w) by (rewrite Hs; mem). pose proof (cyc_of _ _ HI Hl (init_of _ _ _ HI Hl Hx)) as Hc. fold (lh_ids w) in Hc.
      rewrite Hs in Hc. apply cyc_next in Hc. split; [done|]. apply (IH (pre ++ [x])). by rewrite <- app_assoc.
  Qed.
  Lemma pos_hit w k x pre post : LInv w -> mlookup (lh_m w) k = Some x -> lh_ids w = pre ++ x :: post -> position k (lab w) = Some (length pre).
  Proof.
    intros L H Hs. destruct (lookup_hit _ _ _ w k x L H) as [_ Hk]. pose proof (one_each_of eqb zero_k zero w L) as H1.
    rewrite (labs_split zero_k zero _ _ _ _ Hs) in *. rewrite (kv_pair zero_k zero w x) in *.
    rewrite (pos_split k); [by rewrite map_length|done|done].
  Qed.
  Lemma pos_miss w k : LInv w -> mlookup (lh_m w) k = None -> position k (lab w) = None.
  Proof. intros L H. apply pos_none. by apply (absent_of eqb zero_k zero w k L). Qed.
  Lemma link_step w c r w' p x : LInv w -> exec c w = Ok (r, w') -> link w p x -> link w' (shift (lab w) c p) x.
  Proof.
    intros L E. pose proof (exec_calm w c r w' L E) as C. destruct p as [i| |rest].
    - cbn [link]. intros Hi. destruct c as [k|k v|k| |f|]; cbn [LHashMapIterSpec.shift].
      + destruct (exec_Load _ _ _ _ L E) as [_ H]. destruct (mlookup (lh_m w) k) as [z|] eqn:Hm.
        * destruct H as (pre & post & Hs & Hs'). rewrite (pos_hit w k z pre post L Hm Hs). cbn. rewrite Hs'. rewrite Hs in Hi. by rewrite lookup_to_front.
        * rewrite (pos_miss w k L Hm). cbn. by rewrite H.
      + destruct (exec_Store _ _ _ _ _ L E) as [_ H]. destruct (mlookup (lh_m w) k) as [z|] eqn:Hm.
        * destruct H as (pre & post & Hs & Hs'). rewrite (pos_hit w k z pre post L Hm Hs). cbn. rewrite Hs'. rewrite Hs in Hi. by rewrite lookup_to_front.
        * rewrite (pos_miss w k L Hm). cbn. destruct H as [z ->]. done.
      + destruct (exec_Remove _ _ _ _ L E) as [_ H]. destruct (mlookup (lh_m w) k) as [z|] eqn:Hm.
        * destruct H as (Hz & pre & post & Hs & Hs'). rewrite (pos_hit w k z pre post L Hm Hs).
          pose proof (inv_nodup _ _ (li_inv _ _ _ _ L) (li_l _ _ _ _ L)) as Hnd. fold (lh_ids w) in Hnd.
          destruct (Nat.eqb_spec i (length pre)) as [->|Hne].
          -- rewrite Hs, list_lookup_middle in Hi by done. injection Hi as ->. cbn. split; [|done]. split_and!.
             ++ pose proof (c_ne _ _ C). pose proof (ids_known eqb zero_k zero w x L) as Hk. assert (Hx : x ∈ lh_ids w) by (rewrite Hs; mem).
                specialize (Hk Hx). cbn in Hk. lia.
             ++ rewrite Hs'. rewrite Hs in Hnd. rewrite <- Permutation_middle in Hnd. by apply NoDup_cons in Hnd as [? _].
             ++ rewrite (c_root _ _ C). apply (inv_notroot (lh_d w) (lh_l w)); [apply L|apply L|apply L|]. fold (lh_ids w). rewrite Hs. mem.
          -- rewrite Hs in Hi. pose proof (lookup_removed pre z post i Hne) as Hr. rewrite Hi in Hr. destruct (Nat.ltb (length pre) i); cbn; by rewrite Hs'.
        * rewrite (pos_miss w k L Hm). cbn. by rewrite H.
      + rewrite (exec_same w LLen r w' L) by (done || by left). done.
      + rewrite (exec_same w (LRange f) r w' L) by (done || (right; by eexists)). done.
      + destruct (exec_Clear _ _ _ L E) as (_ & H0 & H1 & H2 & H3 & H4).
        apply elem_of_list_split_length in Hi as (pre & post & Hs & ->).
        assert (Ho : forall z, z ∈ x :: post -> z ∈ lh_ids w) by (intros z Hz; rewrite Hs; mem).
        exists post. split_and!.
        * intros z Hz. apply Ho in Hz. assert (Hn : z <> root w) by (apply (inv_notroot (lh_d w) (lh_l w)); [apply L|apply L|apply L|done]).
          destruct (inv_elem _ _ _ (li_inv _ _ _ _ L) (li_l _ _ _ _ L) Hz) as [El Hlt]. destruct (li_ptr _ _ _ _ L z Hz) as (q & Hq & Hq').
          split; [|split].
          -- split_and!; [pose proof (c_ne _ _ C); lia|rewrite H0; apply not_elem_of_nil|by rewrite (c_root _ _ C)].
          -- by rewrite H2, (c_l _ _ C).
          -- exists q. rewrite H3. split; [done|]. split; [pose proof (c_nent _ _ C); lia|]. rewrite H0. intros u Hu. by apply elem_of_nil in Hu.
        * pose proof (ids_nexts w pre x post L Hs) as Hn. rewrite (c_root _ _ C). clear Hs.
          revert x Ho Hn. induction post as [|z post IH]; intros x Ho; cbn.
          -- rewrite H1; [done|]. apply (inv_notroot (lh_d w) (lh_l w)); [apply L|apply L|apply L|]. apply Ho. by left.
          -- intros [Hn Hr]. split; [rewrite H1; [done|]; apply (inv_notroot (lh_d w) (lh_l w)); [apply L|apply L|apply L|]; apply Ho; by left|].
             apply IH; [|done]. intros u Hu. apply Ho. by right.
        * rewrite (labs_split zero_k zero _ _ _ _ Hs). change (map (kv w) pre ++ kv w x :: map (kv w) post) with (map (kv w) pre ++ [kv w x] ++ map (kv w) post).
          rewrite app_assoc, drop_app_alt by (rewrite app_length, map_length; cbn; lia).
          apply map_ext_elem. intros z Hz. unfold kv_of. by rewrite H3, H4.
    - cbn [LHashMapIterSpec.shift link]. intros [Ha Hn]. split; [by eapply aside_calm|]. destruct Ha as (A1 & A2 & A3).
      by destruct (c_cells _ _ C x A1 A2 A3) as (_ & -> & _).
    - cbn [LHashMapIterSpec.shift link]. intros (ids & Ho & Hn & <-). exists ids. split_and!.
      + intros z Hz. by apply (old_calm w w' z C), Ho.
      + by apply (nexts_calm w w').
      + apply map_ext_elem. intros z Hz. apply (old_calm w w' z C), Ho. by right.
  Qed.

  (** * The loop *)
  Lemma steps_app w h w1 h' w2 : steps w h w1 -> steps w1 h' w2 -> steps w (h ++ h') w2.
  Proof. intros H. induction H; cbn; [done|]. intros H'. econstructor; [done|auto]. Qed.
  Lemma reached_steps w h w' : reached w -> steps w h w' -> reached w'.
  Proof. intros (h0 & w0 & H0 & Hs) H. exists (h0 ++ h), w0. split; [done|by eapply steps_app]. Qed.
  Lemma steps_link w h w' : LInv w -> steps w h w' -> forall p x, link w p x ->
    exists p', link w' p' x /\ shifts eqb zero (lab w) p h (lab w') p'.
  Proof.
    intros L H. induction H as [w|w c r w1 h w2 He Hh IH]; intros p x Hl; [exists p; split; [done|constructor]|].
    destruct (lh_step eqb upd zero_k zero P w c L) as (r1 & w1' & He' & L1 & D). rewrite He in He'. injection He' as <- <-.
    pose proof (link_step w c r w1 p x L He Hl) as Hl1. destruct (IH L1 _ _ Hl1) as (p' & Hp & Hsh). exists p'. split; [done|].
    econstructor; [exact D|by apply (one_each_of eqb zero_k zero w1 L1)|done].
  Qed.
  (** The entry of the element the loop stands at can be read. *)
  Lemma link_read w p x : LInv w -> link w p x -> p <> Gone ->
    exists q, ld (rd (Some x) e_val) w = Ok (Some q, w) /\ rd_ent (Some q) w = Ok (kv w x, w).
  Proof.
    intros L Hl Hp. assert (Hq : exists q, e_val (lh_d w) x = Some q).
    { destruct p as [i| |r]; [|done|].
      - apply elem_of_list_lookup_2 in Hl. destruct (li_ptr _ _ _ _ L x Hl) as (q & Hq & _). by exists q.
      - destruct Hl as (ids & Ho & _). destruct (Ho x) as (_ & _ & q & Hq & _); [by left|]. by exists q. }
    destruct Hq as [q Hq]. exists q. unfold ld, rd, rd_ent, kv_of. rewrite Hq. split; [by destruct w|done].
  Qed.
  Lemma link_next w p x : LInv w -> link w p x ->
    match advance (lab w) p with
    | Some (y, q) => exists z, ld (el_Next (Some x)) w = Ok (Some z, w) /\ link w q z /\ kv w z = y /\ q <> Gone
    | None => ld (el_Next (Some x)) w = Ok (None, w)
    end.
  Proof.
    intros L. destruct p as [i| |r]; cbn [link advance].
    - intros Hi. unfold labs. rewrite list_lookup_fmap. apply elem_of_list_split_length in Hi as (pre & post & Hs & ->).
      rewrite (ld_Next eqb zero_k zero w pre x post L Hs). rewrite Hs. replace (S (length pre)) with (length pre + 1) by lia.
      rewrite lookup_app_r by lia. replace (length pre + 1 - length pre) with 1 by lia. cbn. destruct post as [|z post]; cbn; [done|].
      exists z. split_and!; [done| |done|done]. rewrite Hs. rewrite lookup_app_r by lia. by replace (length pre + 1 - length pre) with 1 by lia.
    - intros [_ Hn]. unfold ld, el_Next. prims. rewrite Hn. by destruct w.
    - intros (ids & Ho & Hn & <-). destruct (Ho x) as (_ & Hx & _); [by left|]. destruct ids as [|z ids]; cbn.
      + cbn in Hn. unfold ld, el_Next. prims. rewrite Hx, Hn. rewrite bool_decide_eq_true_2 by done. by destruct w.
      + destruct Hn as [Hn Hr]. exists z. split_and!; [|exists ids; split_and!; [|done|done]|done|done].
        * unfold ld, el_Next. prims. rewrite Hx, Hn. destruct (Ho z) as ((_ & _ & Hz) & _); [right; by left|].
          rewrite bool_decide_eq_false_2 by congruence. by destruct w.
        * intros u Hu. apply Ho. by right.
  Qed.

  Notation turns := (turns eqb upd zero_k zero).
  Notation makes := (makes eqb upd zero_k zero).
  Definition all_turns (R : K * V -> list (lh_call K V * lh_res K V) -> Prop) (ts : list (turn K V)) : Prop :=
    forall t, t ∈ ts -> R (t_entry t) (t_calls t).
  Lemma loop_turns {A} (f : K -> V -> A -> M (lhm K V) (bool * A)) R : makes f R -> forall fuel w p x a a' w',
    reached w -> link w p x -> p <> Gone -> lh_range_loop fuel (Some x) f a w = Ok (a', w') ->
    exists ts, turns f w p (kv w x) a ts a' w' /\ all_turns R ts /\ exists h, steps w h w'.
  Proof.
    intros Hf. induction fuel as [|fuel IH]; intros w p x a a' w' Hr Hl Hp; cbn [lh_range_loop]; [done|].
    pose proof (lh_reached_inv eqb upd zero_k zero P w Hr) as L.
    destruct (link_read w p x L Hl Hp) as (q & R1 & R2). rewrite (bind_ok _ _ _ _ _ R1), (bind_ok _ _ _ _ _ R2).
    unfold bind at 1. destruct (f (kv w x).1 (kv w x).2 a w) as [[[b a1] w1]| |] eqn:E; [|done..]. cbn [fst snd].
    destruct (Hf (kv w x) a (b, a1) w w1 Hr E) as (h & Hh & HR). destruct (steps_link w h w1 L Hh p x Hl) as (p1 & Hl1 & Hsh).
    pose proof (reached_steps w h w1 Hr Hh) as Hr1. pose proof (lh_reached_inv eqb upd zero_k zero P w1 Hr1) as L1.
    assert (HR1 : all_turns R [mk_turn w (kv w x) h]) by (intros t Ht; by apply elem_of_list_singleton in Ht as ->).
    destruct b.
    - pose proof (link_next w1 p1 x L1 Hl1) as Hn. destruct (advance (lab w1) p1) as [[y q1]|] eqn:Ea.
      + destruct Hn as (z & Hz & Hlz & <- & Hq1). rewrite (bind_ok _ _ _ _ _ Hz). intros Hloop.
        destruct (IH w1 q1 z a1 a' w' Hr1 Hlz Hq1 Hloop) as (ts & Ht & Hts & h' & Hh').
        exists (mk_turn w (kv w x) h :: ts). split; [by eapply t_go|]. split; [|exists (h ++ h'); by eapply steps_app].
        intros t Ht'. apply elem_of_cons in Ht' as [->|Ht']; [apply HR1; by left|by apply Hts].
      + rewrite (bind_ok _ _ _ _ _ Hn). destruct fuel as [|fuel]; [done|]. cbn. unfold ret. intros [= <- <-].
        exists [mk_turn w (kv w x) h]. split; [by eapply t_end|]. split; [done|by exists h].
    - unfold ret. intros [= <- <-]. exists [mk_turn w (kv w x) h]. split; [by eapply t_stop|]. split; [done|by exists h].
  Qed.
  Lemma Range_turns {A} (f : K -> V -> A -> M (lhm K V) (bool * A)) R fuel w a a' w' : makes f R -> reached w ->
    lh_Range fuel f a w = Ok (a', w') ->
    (exists h, steps w h w') /\
    match lab w with
    | [] => a' = a /\ w' = w
    | y :: _ => exists ts, turns f w (At 0) y a ts a' w' /\ all_turns R ts
    end.
  Proof.
    intros Hf Hr. pose proof (lh_reached_inv eqb upd zero_k zero P w Hr) as L.
    unfold lh_Range, the_list, bind at 1. rewrite (bind_ok _ _ _ _ _ (ld_Front eqb zero_k zero w L)). unfold labs.
    destruct (lh_ids w) as [|x ids] eqn:Hi; cbn.
    - destruct fuel as [|fuel]; cbn; [done|]. intros [= <- <-]. split; [|done]. exists []. constructor.
    - intros H. destruct (loop_turns f R Hf fuel w (At 0) x a a' w' Hr) as (ts & H1 & H2 & H3); [cbn; by rewrite Hi|done|done|].
      split; [done|]. by exists ts.
  Qed.

  (** * Consequences *)
  (** What is still to come. *)
  Definition to_come s p : list (K * V) := match p with At i => drop (S i) s | Gone => [] | Cleared r => r end.
  (** Where the loop stands there is an entry with key k. *)
  Definition stands s p k : Prop := match p with At i => exists v, s !! i = Some (k, v) | _ => True end.

  Lemma does_shape s s1 c r : one_each eqb s -> lh_does eqb zero s s1 c r ->
    match c with
    | LLoad k => match position k s with Some j => exists pre y post, s = pre ++ y :: post /\ length pre = j /\ s1 = y :: pre ++ post | None => s1 = s end
    | LStore k v => match position k s with Some j => exists pre y post, s = pre ++ y :: post /\ length pre = j /\ s1 = (y.1, v) :: pre ++ post
                                       | None => s1 = (k, v) :: s end
    | LRemove k => match position k s with Some j => exists pre y post, s = pre ++ y :: post /\ length pre = j /\ s1 = pre ++ post | None => s1 = s end
    | LClear => s1 = []
    | LLen | LRange _ => s1 = s
    end.
  Proof.
    intros H1 H. destruct H; subst; rewrite ?(pos_split k) by done; rewrite ?pos_none by done; try done; by eexists _, _, _.
  Qed.
  Lemma drop_front {A} (pre post : list A) (x : A) i : i <> length pre -> drop (S (to_front (length pre) i)) (x :: pre ++ post) `sublist_of` drop (S i) (pre ++ x :: post).
  Proof.
    intros Hne. unfold to_front. rewrite (proj2 (Nat.eqb_neq _ _) Hne). cbn [drop]. destruct (Nat.ltb_spec i (length pre)).
    - rewrite !drop_app_le by lia. apply sublist_app; [done|]. by apply sublist_cons.
    - destruct i as [|i]; [lia|]. rewrite !drop_app_ge by lia. destruct (S (S i) - length pre) as [|n] eqn:E; [lia|]. cbn [drop].
      replace (S i - length pre) with n by lia. done.
  Qed.
  Lemma drop_removed {A} (pre post : list A) (x : A) i : i <> length pre ->
    drop (S (if Nat.ltb (length pre) i then i - 1 else i)) (pre ++ post) `sublist_of` drop (S i) (pre ++ x :: post).
  Proof.
    intros Hne. destruct (Nat.ltb_spec (length pre) i).
    - rewrite !drop_app_ge by lia. destruct (S i - length pre) as [|n] eqn:E; [lia|]. cbn [drop]. replace (S (i - 1) - length pre) with n by lia. done.
    - rewrite !drop_app_le by lia. apply sublist_app; [done|]. by apply sublist_cons.
  Qed.
  Lemma shift_to_come s s1 c r p k : one_each eqb s -> lh_does eqb zero s s1 c r -> stands s p k -> ~ refreshes eqb k c ->
    to_come s1 (shift s c p) `sublist_of` to_come s p.
  Proof.
    intros H1 D Hs Hn. destruct p as [i| |rest]; [|done|done]. cbn [stands] in Hs. destruct Hs as [v0 Hi].
    pose proof (does_shape _ _ _ _ H1 D) as Sh. destruct c as [k1|k1 v1|k1| |f|]; cbn [LHashMapIterSpec.shift refreshes] in *.
    - destruct (position k1 s) as [j|] eqn:Hp; [|by rewrite Sh]. destruct Sh as (pre & y & post & -> & <- & ->). apply drop_front.
      intros ->. by pose proof (pos_some _ _ _ _ Hp Hi).
    - destruct (position k1 s) as [j|] eqn:Hp; [|by rewrite Sh]. destruct Sh as (pre & y & post & -> & <- & ->). cbn [to_come].
      assert (Hne : i <> length pre) by (intros ->; by pose proof (pos_some _ _ _ _ Hp Hi)).
      pose proof (drop_front pre post y i Hne) as Hd. unfold to_front in *. by rewrite (proj2 (Nat.eqb_neq _ _) Hne) in *.
    - destruct (position k1 s) as [j|] eqn:Hp; [|by rewrite Sh]. destruct Sh as (pre & y & post & -> & <- & ->).
      destruct (Nat.eqb_spec i (length pre)) as [->|Hne]; [apply sublist_nil_l|]. pose proof (drop_removed pre post y i Hne) as Hd.
      destruct (Nat.ltb (length pre) i); apply Hd.
    - by subst.
    - by subst.
    - done.
  Qed.
  Lemma shift_stands s s1 c r p k : one_each eqb s -> lh_does eqb zero s s1 c r -> stands s p k -> stands s1 (shift s c p) k.
  Proof.
    intros H1 D Hs. destruct p as [i| |rest]; [|done|done]. cbn [stands] in Hs. destruct Hs as [v0 Hi].
    pose proof (does_shape _ _ _ _ H1 D) as Sh. destruct c as [k1|k1 v1|k1| |f|]; cbn [LHashMapIterSpec.shift] in *; subst; try done; try by exists v0.
    - destruct (position k1 s) as [j|] eqn:Hp; [|subst; by exists v0]. destruct Sh as (pre & y & post & -> & <- & ->).
      exists v0. by rewrite lookup_to_front.
    - destruct (position k1 s) as [j|] eqn:Hp; [|subst; by exists v0]. destruct Sh as (pre & y & post & -> & <- & ->).
      rewrite <- lookup_to_front in Hi. cbn [stands]. destruct (to_front (length pre) i) as [|n]; [|by exists v0].
      cbn in Hi. injection Hi as ->. by exists v1.
    - destruct (position k1 s) as [j|] eqn:Hp; [|subst; by exists v0]. destruct Sh as (pre & y & post & -> & <- & ->).
      destruct (Nat.eqb_spec i (length pre)) as [->|Hne]; [done|]. rewrite <- lookup_removed in Hi by done.
      destruct (Nat.ltb (length pre) i); by exists v0.
  Qed.
  Lemma shifts_to_come s p h s1 p1 k : one_each eqb s -> shifts eqb zero s p h s1 p1 -> stands s p k ->
    stands s1 p1 k /\ ((forall c, c ∈ h.*1 -> ~ refreshes eqb k c) -> to_come s1 p1 `sublist_of` to_come s p).
  Proof.
    intros H1 H. induction H as [s p|s p c r s1 h s2 p2 D O H IH]; intros Hs; [done|].
    destruct (IH O (shift_stands _ _ _ _ _ _ H1 D Hs)) as [I1 I2]. split; [done|]. intros Hn. etrans.
    - apply I2. intros c' Hc'. apply Hn. by right.
    - eapply shift_to_come; [done|exact D|exact Hs|]. apply Hn. by left.
  Qed.
  Lemma advance_come s p (y : K * V) q : advance s p = Some (y, q) -> to_come s p = y :: to_come s q /\ stands s q y.1.
  Proof.
    destruct p as [i| |[|z r]]; cbn; try done; [|by intros [= -> <-]].
    destruct (s !! S i) as [z|] eqn:E; cbn; [|done]. intros [= -> <-]. split; [by erewrite drop_S by done|]. exists y.2. rewrite E. by destruct y.
  Qed.
  Lemma turns_sublist {A} (f : K -> V -> A -> M (lhm K V) (bool * A)) w p (y : K * V) a ts a' w' : reached w -> turns f w p y a ts a' w' ->
    stands (lab w) p y.1 -> all_turns (fun y h => forall c, c ∈ h.*1 -> ~ refreshes eqb y.1 c) ts ->
    (t_entry <$> ts) `sublist_of` y :: to_come (lab w) p.
  Proof.
    intros Hr H. induction H as [w p y a h a1 w1 p1 Hf Hh Hsh|w p y a h a1 w1 p1 Hf Hh Hsh Ha|w p y a h a1 w1 p1 y' q ts a2 w2 Hf Hh Hsh Ha Ht IH];
      intros Hs Hn; cbn; [apply sublist_skip, sublist_nil_l..|].
    apply sublist_skip. pose proof (lh_reached_inv eqb upd zero_k zero P w Hr) as L.
    destruct (shifts_to_come _ _ _ _ _ _ (one_each_of eqb zero_k zero w L) Hsh Hs) as [Hs1 Hc].
    destruct (advance_come _ _ _ _ Ha) as [Hc1 Hs2]. etrans; [apply IH|rewrite <- Hc1; apply Hc].
    - by eapply reached_steps.
    - done.
    - intros t Ht'. apply Hn. by right.
    - intros c Hc'. apply (Hn (mk_turn w y h)); [by left|done].
  Qed.
  (** One turn of the loop. *)
  Lemma loop_turn {A} (f : K -> V -> A -> M (lhm K V) (bool * A)) fuel w p x a : reached w -> link w p x -> p <> Gone ->
    lh_range_loop (S fuel) (Some x) f a w =
    match f (kv w x).1 (kv w x).2 a w with
    | Ok (ba, w1) => (if fst ba then e' <- ld (el_Next (Some x)) ;; lh_range_loop fuel e' f (snd ba) else ret (snd ba)) w1
    | Panic => Panic | NoFuel => NoFuel
    end.
  Proof.
    intros Hr Hl Hp. cbn [lh_range_loop]. pose proof (lh_reached_inv eqb upd zero_k zero P w Hr) as L.
    destruct (link_read w p x L Hl Hp) as (q & R1 & R2). by rewrite (bind_ok _ _ _ _ _ R1), (bind_ok _ _ _ _ _ R2).
  Qed.
  Lemma loop_ends {A} (f : K -> V -> A -> M (lhm K V) (bool * A)) :
    makes f (fun y h => forall c, c ∈ h.*1 -> ~ refreshes eqb y.1 c) ->
    (forall y a w, reached w -> exists r w', f y.1 y.2 a w = Ok (r, w')) -> forall fuel w p x a,
    reached w -> link w p x -> p <> Gone -> stands (lab w) p (kv w x).1 -> length (to_come (lab w) p) + 2 <= fuel ->
    exists a' w', lh_range_loop fuel (Some x) f a w = Ok (a', w').
  Proof.
    intros Hf Hd. induction fuel as [|fuel IH]; intros w p x a Hr Hl Hp Hs Hlen; [lia|].
    rewrite (loop_turn f fuel w p x a Hr Hl Hp). pose proof (lh_reached_inv eqb upd zero_k zero P w Hr) as L.
    destruct (Hd (kv w x) a w Hr) as ([b a1] & w1 & E). rewrite E. cbn [fst snd]. destruct b; [|by eexists _, _].
    destruct (Hf (kv w x) a _ w w1 Hr E) as (h & Hh & HR). destruct (steps_link w h w1 L Hh p x Hl) as (p1 & Hl1 & Hsh).
    destruct (shifts_to_come _ _ _ _ _ _ (one_each_of eqb zero_k zero w L) Hsh Hs) as [Hs1 Hc].
    pose proof (reached_steps w h w1 Hr Hh) as Hr1. pose proof (lh_reached_inv eqb upd zero_k zero P w1 Hr1) as L1.
    pose proof (sublist_length _ _ (Hc HR)) as Hlen1.
    pose proof (link_next w1 p1 x L1 Hl1) as Hn. destruct (advance (lab w1) p1) as [[y q1]|] eqn:Ea.
    - destruct Hn as (z & Hz & Hlz & <- & Hq1). rewrite (bind_ok _ _ _ _ _ Hz).
      destruct (advance_come _ _ _ _ Ea) as [Hc1 Hs2]. rewrite Hc1 in Hlen1. cbn in Hlen1.
      apply (IH w1 q1 z); [done..|lia].
    - rewrite (bind_ok _ _ _ _ _ Hn). destruct fuel as [|fuel]; [lia|]. cbn. by eexists _, _.
  Qed.
  Lemma Range_head {A} (f : K -> V -> A -> M (lhm K V) (bool * A)) fuel w a : reached w ->
    lh_Range fuel f a w = lh_range_loop fuel (head (lh_ids w)) f a w.
  Proof.
    intros Hr. pose proof (lh_reached_inv eqb upd zero_k zero P w Hr) as L.
    unfold lh_Range, the_list, bind at 1. by rewrite (bind_ok _ _ _ _ _ (ld_Front eqb zero_k zero w L)).
  Qed.
  Lemma link_head w x ids : lh_ids w = x :: ids ->
    lab w = kv w x :: map (kv w) ids /\ link w (At 0) x /\ stands (lab w) (At 0) (kv w x).1 /\ to_come (lab w) (At 0) = map (kv w) ids.
  Proof.
    intros Hi. unfold labs. cbn [link stands to_come]. rewrite Hi. cbn. rewrite ?drop_0. split_and!; try done. exists (kv w x).2. by destruct (kv w x).
  Qed.
  Lemma Range_ends {A} (f : K -> V -> A -> M (lhm K V) (bool * A)) fuel w a :
    makes f (fun y h => forall c, c ∈ h.*1 -> ~ refreshes eqb y.1 c) ->
    (forall y a w, reached w -> exists r w', f y.1 y.2 a w = Ok (r, w')) ->
    reached w -> length (lab w) < fuel -> exists a' w', lh_Range fuel f a w = Ok (a', w').
  Proof.
    intros Hf Hd Hr Hlen. rewrite Range_head by done. destruct (lh_ids w) as [|x ids] eqn:Hi.
    - destruct fuel; [lia|]. by eexists _, _.
    - destruct (link_head w x ids Hi) as (H1 & H2 & H3 & H4). eapply (loop_ends f Hf Hd fuel w (At 0)); [done..|].
      rewrite H4. rewrite H1 in Hlen. cbn in Hlen. lia.
  Qed.
  Lemma Range_no_panic {A} (f : K -> V -> A -> M (lhm K V) (bool * A)) R fuel w a : makes f R ->
    (forall y a w, reached w -> f y.1 y.2 a w <> Panic) -> reached w -> lh_Range fuel f a w <> Panic.
  Proof.
    intros Hf Hd Hr. rewrite Range_head by done. destruct (lh_ids w) as [|x ids] eqn:Hi; [by destruct fuel|].
    destruct (link_head w x ids Hi) as (_ & Hl & _ & _). cbn [head]. assert (Hp : At 0 <> @Gone K V) by done. revert Hl Hp. generalize (@At K V 0).
    clear ids Hi. intros p. revert w x p a Hr. induction fuel as [|fuel IH]; intros w x p a Hr Hl Hp; [done|].
    rewrite (loop_turn f fuel w p x a Hr Hl Hp). pose proof (lh_reached_inv eqb upd zero_k zero P w Hr) as L.
    destruct (f (kv w x).1 (kv w x).2 a w) as [[[b a1] w1]| |] eqn:E; [|by apply Hd in E|done]. cbn [fst snd]. destruct b; [|done].
    destruct (Hf (kv w x) a _ w w1 Hr E) as (h & Hh & _). destruct (steps_link w h w1 L Hh p x Hl) as (p1 & Hl1 & Hsh).
    pose proof (reached_steps w h w1 Hr Hh) as Hr1. pose proof (lh_reached_inv eqb upd zero_k zero P w1 Hr1) as L1.
    pose proof (link_next w1 p1 x L1 Hl1) as Hn. destruct (advance (lab w1) p1) as [[y q1]|] eqn:Ea.
    - destruct Hn as (z & Hz & Hlz & <- & Hq1). rewrite (bind_ok _ _ _ _ _ Hz). by apply (IH w1 z q1).
    - rewrite (bind_ok _ _ _ _ _ Hn). by destruct fuel.
  Qed.

  (** Without Clear. *)
  Lemma shifts_no_clear s p h s1 p1 : shifts eqb zero s p h s1 p1 -> LClear ∉ h.*1 -> (forall r, p <> Cleared r) -> forall r, p1 <> Cleared r.
  Proof.
    intros H. induction H as [s p|s p c r s1 h s2 p2 D O H IH]; intros Hc Hp; [done|]. cbn in Hc. apply not_elem_of_cons in Hc as [Hc1 Hc2].
    apply IH; [done|]. destruct p as [i| |rest]; [|done|by destruct (Hp rest)].
    destruct c as [k1|k1 v1|k1| |g|]; cbn; try done; destruct (position k1 s); try done; repeat case_match; done.
  Qed.
  Lemma turns_in_map {A} (f : K -> V -> A -> M (lhm K V) (bool * A)) w p (y : K * V) a ts a' w' : turns f w p y a ts a' w' ->
    (forall r, p <> Cleared r) -> y ∈ lab w -> all_turns (fun _ h => LClear ∉ h.*1) ts ->
    forall t, t ∈ ts -> t_entry t ∈ lab (t_map t).
  Proof.
    intros H. induction H as [w p y a h a1 w1 p1 Hf Hh Hsh|w p y a h a1 w1 p1 Hf Hh Hsh Ha|w p y a h a1 w1 p1 y' q ts a2 w2 Hf Hh Hsh Ha Ht IH];
      intros Hp Hy Hn t Hi; [apply elem_of_list_singleton in Hi as ->; done..|].
    apply elem_of_cons in Hi as [->|Hi]; [done|]. assert (Hp1 : forall r, p1 <> Cleared r).
    { eapply shifts_no_clear; [done| |done]. apply (Hn (mk_turn w y h)). by left. }
    destruct p1 as [i| |rest]; [|done|by destruct (Hp1 rest)]. cbn in Ha. destruct (lab w1 !! S i) as [z|] eqn:E; [|done].
    injection Ha as -> <-. apply IH; [done|by eapply elem_of_list_lookup_2| |done]. intros u Hu. apply Hn. by right.
  Qed.

  (** An entry that no call has to do with comes, unless the loop is cut short. *)
  Lemma shift_ahead s s1 c r i j k (y : K * V) : one_each eqb s -> lh_does eqb zero s s1 c r ->
    (exists v, s !! i = Some (k, v)) -> s !! j = Some y -> i < j -> ~ removes eqb k c -> ~ touches eqb y.1 c ->
    exists i' j', shift s c (At i) = At i' /\ s1 !! j' = Some y /\ i' < j'.
  Proof.
    intros H1 D [v0 Hi] Hj Hij Hr Ht. pose proof (does_shape _ _ _ _ H1 D) as Sh.
    destruct c as [k1|k1 v1|k1| |g|]; cbn [LHashMapIterSpec.shift removes touches] in *; try (subst; by eauto); [| |].
    - destruct (position k1 s) as [n|] eqn:Hp; [|subst; by eauto]. assert (Hne : j <> n) by (intros ->; by pose proof (pos_some _ _ _ _ Hp Hj)).
      destruct Sh as (pre & z & post & -> & <- & ->). exists (to_front (length pre) i), (to_front (length pre) j).
      rewrite lookup_to_front. split_and!; [done|done|]. unfold to_front. repeat case_match; lia.
    - destruct (position k1 s) as [n|] eqn:Hp; [|exists (S i), (S j); subst; split_and!; [done|done|lia]].
      assert (Hne : j <> n) by (intros ->; by pose proof (pos_some _ _ _ _ Hp Hj)).
      destruct Sh as (pre & z & post & -> & <- & ->). exists (to_front (length pre) i), (to_front (length pre) j). split_and!; [done| |unfold to_front; repeat case_match; lia].
      rewrite <- lookup_to_front in Hj. assert (Hz : to_front (length pre) j <> 0) by (unfold to_front; repeat case_match; lia).
      destruct (to_front (length pre) j) as [|m]; [done|]. done.
    - destruct (position k1 s) as [n|] eqn:Hp; [|subst; by eauto]. assert (Hne : j <> n) by (intros ->; by pose proof (pos_some _ _ _ _ Hp Hj)).
      assert (Hni : i <> n) by (intros ->; by pose proof (pos_some _ _ _ _ Hp Hi)).
      destruct Sh as (pre & z & post & -> & <- & ->). rewrite <- lookup_removed in Hj by done. rewrite (proj2 (Nat.eqb_neq _ _) Hni).
      exists (if Nat.ltb (length pre) i then i - 1 else i). eexists _. split_and!; [by destruct (Nat.ltb (length pre) i)|exact Hj|].
      destruct (Nat.ltb_spec (length pre) i), (Nat.ltb_spec (length pre) j); lia.
  Qed.
  Lemma shifts_ahead s p h s1 p1 i j k (y : K * V) : one_each eqb s -> shifts eqb zero s p h s1 p1 -> p = At i ->
    (exists v, s !! i = Some (k, v)) -> s !! j = Some y -> i < j ->
    (forall c, c ∈ h.*1 -> ~ removes eqb k c) -> (forall c, c ∈ h.*1 -> ~ touches eqb y.1 c) ->
    exists i' j', p1 = At i' /\ s1 !! j' = Some y /\ i' < j'.
  Proof.
    intros H1 H. revert i j. induction H as [s p|s p c r s1 h s2 p2 D O H IH]; intros i j -> Hi Hj Hij Hr Ht; [by eauto|].
    destruct (shift_ahead s s1 c r i j k y H1 D Hi Hj Hij) as (i' & j' & E & Hj' & Hij'); [apply Hr; by left|apply Ht; by left|].
    pose proof (shift_stands s s1 c r (At i) k H1 D Hi) as Hi'. rewrite E in Hi'.
    apply (IH O i' j'); [done..| |]; intros c' Hc'; [apply Hr|apply Ht]; by right.
  Qed.
  Lemma turns_all {A} (f : K -> V -> A -> M (lhm K V) (bool * A)) (y : K * V) w p (x : K * V) a ts a' w' : reached w -> turns f w p x a ts a' w' ->
    (forall y a w b a1 w1, reached w -> f y.1 y.2 a w = Ok ((b, a1), w1) -> b = true) ->
    all_turns (fun u h => forall c, c ∈ h.*1 -> ~ removes eqb u.1 c /\ ~ touches eqb y.1 c) ts ->
    forall i j, p = At i -> lab w !! i = Some x -> lab w !! j = Some y -> i <= j -> y ∈ (t_entry <$> ts).
  Proof.
    intros Hr H Hgo. revert Hr.
    induction H as [w p x a h a1 w1 p1 Hf Hh Hsh|w p x a h a1 w1 p1 Hf Hh Hsh Ha|w p x a h a1 w1 p1 z q ts a2 w2 Hf Hh Hsh Ha Ht IH];
      intros Hr Hn i j -> Hi Hj Hij; [by apply Hgo in Hf| |];
      (destruct (decide (i = j)) as [->|Hne]; [rewrite Hi in Hj; injection Hj as ->; by left|]);
      pose proof (lh_reached_inv eqb upd zero_k zero P w Hr) as L;
      (edestruct (shifts_ahead (lab w) (At i) h (lab w1) p1 i j x.1 y (one_each_of eqb zero_k zero w L) Hsh) as (i' & j' & -> & Hj' & Hij');
        [done|exists x.2; rewrite Hi; by destruct x|done|lia|intros c Hc; eapply (Hn (mk_turn w x h)); [by left|done]..|]);
      cbn in Ha.
    - destruct (lab w1 !! S i') eqn:E; [done|]. apply lookup_ge_None in E. apply lookup_lt_Some in Hj'. lia.
    - destruct (lab w1 !! S i') as [u|] eqn:E; [|done]. injection Ha as -> <-. cbn. right.
      apply (IH ltac:(by eapply reached_steps)) with (S i') j'; [|done|done|done|lia]. intros t Ht'. apply Hn. by right.
  Qed.

  (** Clear. *)
  Definition clearing (k : K) (v : V) (a : list (K * V)) : M (lhm K V) (bool * list (K * V)) := lh_Clear ;;; note (fun _ _ => true) k v a.
  Lemma clearing_ok (x : K * V) a w : reached w -> exists w', clearing x.1 x.2 a w = Ok ((true, a ++ [x]), w') /\ exec LClear w = Ok (LUnit, w').
  Proof.
    intros Hr. pose proof (lh_reached_inv eqb upd zero_k zero P w Hr) as L.
    destruct (lh_step eqb upd zero_k zero P w LClear L) as (r & w' & He & L1 & D). inversion D; subst. exists w'. split; [|done].
    cbn [lh_exec] in He. unfold lmap in He. unfold clearing. destruct (lh_Clear w) as [[u w1]| |] eqn:E; unfold bind in He; rewrite E in He; [|done..].
    injection He as <-. rewrite (bind_ok _ _ _ _ _ E). unfold note, ret. by destruct x.
  Qed.
  Definition just_clear : K * V -> list (lh_call K V * lh_res K V) -> Prop := fun _ h => h.*1 = [LClear].
  Lemma clearing_makes : makes clearing just_clear.
  Proof.
    intros x a r w w' Hr Hf. destruct (clearing_ok x a w Hr) as (w1 & E1 & E2). rewrite E1 in Hf. injection Hf as <- <-.
    exists [(LClear, LUnit)]. split; [|done]. econstructor; [done|constructor].
  Qed.
  Lemma clearing_turns w p (x : K * V) a ts a' w' : reached w -> turns clearing w p x a ts a' w' -> (forall t, t ∈ ts -> (t_calls t).*1 = [LClear]) ->
    p <> Gone -> a' = a ++ x :: to_come (lab w) p /\ lab w' = [] /\ forall t, t ∈ tail ts -> lab (t_map t) = [].
  Proof.
    intros Hr H. induction H as [w p x a h a1 w1 p1 Hf Hh Hsh|w p x a h a1 w1 p1 Hf Hh Hsh Ha|w p x a h a1 w1 p1 z q ts a2 w2 Hf Hh Hsh Ha Ht IH];
      intros Hc Hp; destruct (clearing_ok x a w Hr) as (w1' & E1 & E2); rewrite E1 in Hf; [done|..]; injection Hf as <- <-;
      (assert (h = [(LClear, LUnit)]) as -> by
        (pose proof (Hc (mk_turn w x h) ltac:(by left)) as Hh1; cbn in Hh1; destruct h as [|[c r] [|? ?]]; [done| |done]; cbn in Hh1; injection Hh1 as ->;
         inversion Hh as [|? ? ? ? ? ? He]; subst; rewrite E2 in He; by injection He as ->));
      inversion Hsh as [|? ? ? ? ? ? ? ? D O Hsh1]; subst; inversion Hsh1; subst; inversion D as [| | | | | | | |Hn]; subst.
    - split; [|split; [done|intros t Ht; by apply elem_of_nil in Ht]]. destruct p as [i| |rest]; [|done|]; cbn in *; [by destruct (drop (S i) (lab w))|by destruct rest].
    - assert (Hz : to_come (lab w) p = z :: to_come [] q /\ q <> Gone).
      { destruct p as [i| |rest]; [|done|]; cbn in Ha; [destruct (drop (S i) (lab w)) as [|u l] eqn:E|destruct rest as [|u l]]; try done;
          injection Ha as -> <-; cbn; rewrite ?E; done. }
      destruct Hz as [Hz Hq]. rewrite Hz. destruct IH as (-> & I2 & I3); [by eapply reached_steps|intros t Ht'; apply Hc; by right|done|].
      rewrite <- Hn. split_and!; [by rewrite <- app_assoc|done|]. cbn. intros t Ht'. inversion Ht; subst; cbn in *;
      apply elem_of_cons in Ht' as [->|Ht']; cbn; try done; by apply I3.
  Qed.
End proofs.
