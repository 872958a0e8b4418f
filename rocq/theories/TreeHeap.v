From Coq Require Import ZifyBool ZifyNat.
From Verif Require Import Base TreeModel TreeSpec TreeProofs TreeBuild.

(** The tree with nodes [b .. b+len-1] in which node [b+j] has the children [b+2j+1] and [b+2j+2]. *)
Fixpoint heap_tree (fuel b j len : nat) : btree :=
  match fuel with
  | O => Leaf
  | S fuel => if j <? len then Node (heap_tree fuel b (2 * j + 1) len) (b + j) (heap_tree fuel b (2 * j + 2) len) else Leaf
  end.
Lemma heap_tree_ge fuel b j len : len <= j -> heap_tree fuel b j len = Leaf.
Proof. destruct fuel; cbn [heap_tree]; [done|]. destruct (Nat.ltb_spec j len); [lia|done]. Qed.
Definition cut (b len : nat) (l : list nat) : list nat := filter (fun x => x < b + len) l.
Lemma cut_ge b len s n : len <= s -> cut b len (seq (b + s) n) = [].
Proof.
  intros H. unfold cut. revert s H. induction n as [|n IH]; intros s H; cbn [seq]; [done|].
  rewrite filter_cons_False by lia. rewrite <- plus_n_Sm || idtac. replace (S (b + s)) with (b + S s) by lia. apply IH. lia.
Qed.
Lemma heap_row b len d : forall j fuel, len < j + fuel ->
  row d (heap_tree fuel b j len) = cut b len (seq (b + ((j + 1) * 2 ^ d - 1)) (2 ^ d)).
Proof.
  induction d as [|d IH]; intros j [|fuel] Hf.
  - cbn [heap_tree row Nat.pow seq]. unfold cut. rewrite filter_cons_False by lia. done.
  - cbn [heap_tree Nat.pow]. replace (b + ((j + 1) * 1 - 1)) with (b + j) by lia. cbn [seq]. unfold cut.
    destruct (Nat.ltb_spec j len); cbn [row].
    + rewrite filter_cons_True by lia. done.
    + rewrite filter_cons_False by lia. done.
  - rewrite cut_ge; [done|]. pose proof (Nat.pow_nonzero 2 (S d)). nia.
  - destruct (Nat.ltb_spec j len) as [H|H].
    + cbn [heap_tree]. replace (j <? len) with true by lia. cbn [row]. rewrite !IH by lia.
      unfold cut. rewrite <- filter_app. f_equal. cbn [Nat.pow].
      pose proof (Nat.pow_nonzero 2 d).
      replace (2 * 2 ^ d) with (2 ^ d + 2 ^ d) by lia. rewrite seq_app. f_equal; f_equal; nia.
    + rewrite heap_tree_ge by done. rewrite cut_ge; [done|]. pose proof (Nat.pow_nonzero 2 (S d)). nia.
Qed.
Lemma cut_seq b len D : len <= D -> cut b len (seq b D) = seq b len.
Proof.
  intros H. replace D with (len + (D - len)) by lia. rewrite seq_app. unfold cut. rewrite filter_app.
  pose proof (cut_ge b len len (D - len)) as E. unfold cut in E. rewrite E by lia. rewrite app_nil_r.
  clear. assert (forall s n, s + n <= b + len -> filter (fun x => x < b + len) (seq s n) = seq s n) as K; [|apply K; lia].
  intros s n. revert s. induction n as [|n IH]; intros s Hs; cbn [seq]; [done|]. rewrite filter_cons_True by lia. by rewrite IH by lia.
Qed.
Lemma concat_cut b len (D : nat) :
  concat (map (fun d => cut b len (seq (b + (2 ^ d - 1)) (2 ^ d))) (seq 0 D)) = cut b len (seq b (2 ^ D - 1)).
Proof.
  induction D as [|D IH]; [done|]. rewrite seq_S, map_app, concat_app, IH. cbn [map concat]. rewrite app_nil_r.
  unfold cut. rewrite <- filter_app. f_equal. pose proof (Nat.pow_nonzero 2 D).
  replace (2 ^ S D - 1) with ((2 ^ D - 1) + 2 ^ D) by (cbn; lia). rewrite seq_app. done.
Qed.
Lemma heap_level_order b len : level_order (heap_tree (S len) b 0 len) = seq b len.
Proof.
  unfold level_order. set (t := heap_tree (S len) b 0 len).
  assert (Hrow : forall d, row d t = cut b len (seq (b + (2 ^ d - 1)) (2 ^ d))).
  { intros d. unfold t. rewrite heap_row by lia. do 3 f_equal. lia. }
  assert (E : map (fun d => row d t) (seq 0 (rows t)) = map (fun d => cut b len (seq (b + (2 ^ d - 1)) (2 ^ d))) (seq 0 (rows t))).
  { apply map_ext. done. }
  rewrite E, concat_cut. apply cut_seq.
  destruct (decide (len <= 2 ^ rows t - 1)); [done|].
  exfalso. assert (row (rows t) t <> []) as Hne.
  { rewrite Hrow. pose proof (Nat.pow_nonzero 2 (rows t)). destruct (2 ^ rows t) as [|m] eqn:Em; [lia|]. cbn [seq].
    unfold cut. rewrite filter_cons_True by lia. done. }
  apply row_lt in Hne. lia.
Qed.

Section build.
  Context {T : Type}.
  Implicit Types (w : tworld T).

  Record built w0 w (vals : list T) (i : nat) : Prop := {
    b_n : t_n w = t_n w0 + i;
    b_val : forall j, j < i -> vals !! j = Some (t_val w (t_n w0 + j));
    b_left : forall j, j < i -> t_left w (t_n w0 + j) = if 2 * j + 1 <? i then Some (t_n w0 + (2 * j + 1)) else None;
    b_right : forall j, j < i -> t_right w (t_n w0 + j) = if 2 * j + 2 <? i then Some (t_n w0 + (2 * j + 2)) else None;
    b_root : t_parent w (t_n w0) = None;
    b_pl : forall j, 2 * j + 1 < i -> t_parent w (t_n w0 + (2 * j + 1)) = Some (t_n w0 + j);
    b_pr : forall j, 2 * j + 2 < i -> t_parent w (t_n w0 + (2 * j + 2)) = Some (t_n w0 + j);
    b_old : forall x, x < t_n w0 -> same_at w0 w x /\ t_val w x = t_val w0 x }.

  Definition new_node (v : T) w : tworld T :=
    let x := t_n w in
    mk_tworld (<[x:=v]> (t_val w)) (<[x:=None]> (t_parent w)) (<[x:=None]> (t_left w)) (<[x:=None]> (t_right w)) (S x).
  Lemma built_left w0 w vals k v : built w0 w vals (2 * k + 1) -> vals !! (2 * k + 1) = Some v ->
    built w0 (set_child true (t_n w0 + k) (Some (t_n w0 + (2 * k + 1))) (new_node v w)) vals (2 * k + 2).
  Proof.
    intros [H1 H2 H3 H4 H5 H6 H7 H8] Hv.
    assert (Eo : t_left (new_node v w) (t_n w0 + k) = None).
    { unfold new_node. cbn. rewrite fn_lookup_insert_ne by lia. rewrite H3 by lia. by replace (_ <? _) with false by lia. }
    unfold set_child. cbn [t_child]. rewrite Eo. unfold new_node. cbn [t_val t_parent t_left t_right t_n]. rewrite H1.
    constructor; cbn [t_val t_parent t_left t_right t_n].
    - lia.
    - intros j Hj. destruct (decide (j = 2 * k + 1)) as [->|Hne]; [by rewrite fn_lookup_insert|].
      rewrite fn_lookup_insert_ne by lia. apply H2. lia.
    - intros j Hj. destruct (decide (j = k)) as [->|Hne].
      + rewrite fn_lookup_insert. by replace (_ <? _) with true by lia.
      + rewrite fn_lookup_insert_ne by lia. destruct (decide (j = 2 * k + 1)) as [->|Hne2].
        * rewrite fn_lookup_insert. by replace (_ <? _) with false by lia.
        * rewrite fn_lookup_insert_ne by lia. rewrite H3 by lia.
          destruct (Nat.ltb_spec (2 * j + 1) (2 * k + 1)), (Nat.ltb_spec (2 * j + 1) (2 * k + 2)); first [done|lia].
    - intros j Hj. destruct (decide (j = 2 * k + 1)) as [->|Hne2].
      + rewrite fn_lookup_insert. by replace (_ <? _) with false by lia.
      + rewrite fn_lookup_insert_ne by lia. rewrite H4 by lia.
        destruct (Nat.ltb_spec (2 * j + 2) (2 * k + 1)), (Nat.ltb_spec (2 * j + 2) (2 * k + 2)); first [done|lia].
    - by rewrite !fn_lookup_insert_ne by lia.
    - intros j Hj. destruct (decide (j = k)) as [->|Hne]; [by rewrite fn_lookup_insert|].
      rewrite !fn_lookup_insert_ne by lia. apply H6. lia.
    - intros j Hj. rewrite !fn_lookup_insert_ne by lia. apply H7. lia.
    - intros x Hx. destruct (H8 x Hx) as [(E1&E2&E3) E4]. unfold same_at. cbn [t_val t_parent t_left t_right t_n].
      by rewrite !fn_lookup_insert_ne by lia.
  Qed.
  Lemma built_right w0 w vals k v : built w0 w vals (2 * k + 2) -> vals !! (2 * k + 2) = Some v ->
    built w0 (set_child false (t_n w0 + k) (Some (t_n w0 + (2 * k + 2))) (new_node v w)) vals (2 * k + 3).
  Proof.
    intros [H1 H2 H3 H4 H5 H6 H7 H8] Hv.
    assert (Eo : t_right (new_node v w) (t_n w0 + k) = None).
    { unfold new_node. cbn. rewrite fn_lookup_insert_ne by lia. rewrite H4 by lia. by replace (_ <? _) with false by lia. }
    unfold set_child. cbn [t_child]. rewrite Eo. unfold new_node. cbn [t_val t_parent t_left t_right t_n]. rewrite H1.
    constructor; cbn [t_val t_parent t_left t_right t_n].
    - lia.
    - intros j Hj. destruct (decide (j = 2 * k + 2)) as [->|Hne]; [by rewrite fn_lookup_insert|].
      rewrite fn_lookup_insert_ne by lia. apply H2. lia.
    - intros j Hj. destruct (decide (j = 2 * k + 2)) as [->|Hne2].
      + rewrite fn_lookup_insert. by replace (_ <? _) with false by lia.
      + rewrite fn_lookup_insert_ne by lia. rewrite H3 by lia.
        destruct (Nat.ltb_spec (2 * j + 1) (2 * k + 2)), (Nat.ltb_spec (2 * j + 1) (2 * k + 3)); first [done|lia].
    - intros j Hj. destruct (decide (j = k)) as [->|Hne].
      + rewrite fn_lookup_insert. by replace (_ <? _) with true by lia.
      + rewrite fn_lookup_insert_ne by lia. destruct (decide (j = 2 * k + 2)) as [->|Hne2].
        * rewrite fn_lookup_insert. by replace (_ <? _) with false by lia.
        * rewrite fn_lookup_insert_ne by lia. rewrite H4 by lia.
          destruct (Nat.ltb_spec (2 * j + 2) (2 * k + 2)), (Nat.ltb_spec (2 * j + 2) (2 * k + 3)); first [done|lia].
    - by rewrite !fn_lookup_insert_ne by lia.
    - intros j Hj. rewrite !fn_lookup_insert_ne by lia. apply H6. lia.
    - intros j Hj. destruct (decide (j = k)) as [->|Hne]; [by rewrite fn_lookup_insert|].
      rewrite !fn_lookup_insert_ne by lia. apply H7. lia.
    - intros x Hx. destruct (H8 x Hx) as [(E1&E2&E3) E4]. unfold same_at. cbn [t_val t_parent t_left t_right t_n].
      by rewrite !fn_lookup_insert_ne by lia.
  Qed.

  Lemma build_loop_spec w0 n : forall vs vals k w, length vs <= n -> built w0 w vals (2 * k + 1) ->
    vs = drop (2 * k + 1) vals -> 2 * k + 1 <= length vals ->
    exists w', build_loop (map (fun j => Some (t_n w0 + j)) (seq k (k + 1))) vs w = Ok (tt, w') /\ built w0 w' vals (length vals).
  Proof.
    induction n as [|n IH]; intros vs vals k w Hn Hb Hvs Hlen.
    - destruct vs; [|cbn in Hn; lia]. exists w. split; [done|].
      assert (length vals = 2 * k + 1) as ->; [|done].
      pose proof (drop_length vals (2 * k + 1)) as E. rewrite <- Hvs in E. cbn in E. lia.
    - destruct vs as [|v1 vs1].
      { apply (IH [] vals k w); [cbn; lia|done..]. }
      assert (Hv1 : vals !! (2 * k + 1) = Some v1). { rewrite <- (Nat.add_0_r (2 * k + 1)), <- lookup_drop, <- Hvs. done. }
      assert (Hl1 : 2 * k + 1 < length vals) by (by apply lookup_lt_Some in Hv1).
      assert (Hvs1 : vs1 = drop (2 * k + 2) vals).
      { rewrite (drop_S _ v1) in Hvs by done. injection Hvs as ->. f_equal. lia. }
      pose proof (built_left w0 w vals k v1 Hb Hv1) as Hb1.
      set (w1 := set_child true (t_n w0 + k) (Some (t_n w0 + (2 * k + 1))) (new_node v1 w)) in *.
      assert (E1 : (c1 <- NewNode v1 ;; SetLeft (Some (t_n w0 + k)) c1) w = Ok (t_left (new_node v1 w) (t_n w0 + k), w1)).
      { unfold bind. change (NewNode v1 w) with (Ok (Some (t_n w), new_node v1 w)). cbv beta iota.
        rewrite SetLeft_eq. unfold w1. rewrite (b_n _ _ _ _ Hb). done. }
      replace (k + 1) with (S k) by lia. cbn [seq map build_loop].
      assert (EB : forall A (f : M (tworld T) A), (c1 <- NewNode v1 ;; SetLeft (Some (t_n w0 + k)) c1 ;;; f) w = f w1).
      { intros A f. revert E1. unfold bind. destruct (NewNode v1 w) as [[c s]| |]; [|done..]. intros E1. by rewrite E1. }
      rewrite EB. unfold bind at 1, tget at 1.
      assert (El : t_left w1 (t_n w0 + k) = Some (t_n w0 + (2 * k + 1))).
      { rewrite (b_left _ _ _ _ Hb1) by lia. by replace (_ <? _) with true by lia. }
      rewrite El. destruct vs1 as [|v2 vs2].
      + exists w1. split; [done|]. assert (length vals = 2 * k + 2) as ->; [|done].
        pose proof (drop_length vals (2 * k + 2)) as E. rewrite <- Hvs1 in E. cbn in E. lia.
      + assert (Hv2 : vals !! (2 * k + 2) = Some v2). { rewrite <- (Nat.add_0_r (2 * k + 2)), <- lookup_drop, <- Hvs1. done. }
        assert (Hl2 : 2 * k + 2 < length vals) by (by apply lookup_lt_Some in Hv2).
        assert (Hvs2 : vs2 = drop (2 * k + 3) vals).
        { rewrite (drop_S _ v2) in Hvs1 by done. injection Hvs1 as ->. f_equal. lia. }
        pose proof (built_right w0 w1 vals k v2 Hb1 Hv2) as Hb2.
        set (w2 := set_child false (t_n w0 + k) (Some (t_n w0 + (2 * k + 2))) (new_node v2 w1)) in *.
        assert (E2 : (c1 <- NewNode v2 ;; SetRight (Some (t_n w0 + k)) c1) w1 = Ok (t_right (new_node v2 w1) (t_n w0 + k), w2)).
        { unfold bind. change (NewNode v2 w1) with (Ok (Some (t_n w1), new_node v2 w1)). cbv beta iota.
          rewrite SetRight_eq. unfold w2. rewrite (b_n _ _ _ _ Hb1). done. }
        assert (EB2 : forall A (f : M (tworld T) A), (c1 <- NewNode v2 ;; SetRight (Some (t_n w0 + k)) c1 ;;; f) w1 = f w2).
        { intros A f. revert E2. unfold bind. destruct (NewNode v2 w1) as [[c s]| |]; [|done..]. intros E2. by rewrite E2. }
        rewrite EB2. unfold bind at 1, tget at 1.
        assert (Er : t_right w2 (t_n w0 + k) = Some (t_n w0 + (2 * k + 2))).
        { rewrite (b_right _ _ _ _ Hb2) by lia. by replace (_ <? _) with true by lia. }
        rewrite Er.
        assert (Eq : (map (fun j => Some (t_n w0 + j)) (seq (S k) k) ++ [Some (t_n w0 + (2 * k + 1))]) ++ [Some (t_n w0 + (2 * k + 2))]
          = map (fun j => Some (t_n w0 + j)) (seq (S k) (S k + 1))).
        { replace (S k + 1) with (k + 2) by lia. rewrite seq_app, map_app, <- app_assoc. cbn.
          do 4 f_equal; [lia|]. f_equal. f_equal. lia. }
        rewrite Eq. apply (IH vs2 vals (S k) w2).
        * cbn in Hn. lia.
        * by replace (2 * S k + 1) with (2 * k + 3) by lia.
        * by replace (2 * S k + 1) with (2 * k + 3) by lia.
        * lia.
  Qed.
  Lemma built_rep w0 w vals : built w0 w vals (length vals) -> forall fuel j,
    j < length vals -> length vals < j + fuel -> rep w (t_parent w (t_n w0 + j)) (Some (t_n w0 + j)) (heap_tree fuel (t_n w0) j (length vals)).
  Proof.
    intros Hb. induction fuel as [|fuel IH]; intros j Hj Hf; [lia|]. cbn [heap_tree].
    replace (j <? length vals) with true by lia. cbn [rep]. split; [done|]. split; [done|].
    rewrite (b_left _ _ _ _ Hb), (b_right _ _ _ _ Hb) by done. split.
    - destruct (Nat.ltb_spec (2 * j + 1) (length vals)).
      + rewrite <- (b_pl _ _ _ _ Hb) by done. apply IH; lia.
      + by rewrite heap_tree_ge by lia.
    - destruct (Nat.ltb_spec (2 * j + 2) (length vals)).
      + rewrite <- (b_pr _ _ _ _ Hb) by done. apply IH; lia.
      + by rewrite heap_tree_ge by lia.
  Qed.

  (** BuildTree *)
  Theorem BuildTree_spec (vals : list T) w : exists t w',
    BuildTree vals w = Ok (root t, w') /\ whole w' t /\ map (t_val w') (level_order t) = vals /\
    (forall x, x < t_n w -> same_at w w' x /\ t_val w' x = t_val w x) /\
    preorder t ≡ₚ seq (t_n w) (length vals) /\ t_n w' = t_n w + length vals /\
    t = heap_tree (S (length vals)) (t_n w) 0 (length vals).
  Proof.
    destruct vals as [|v vs].
    { exists Leaf, w. split; [done|]. split; [split; [done|constructor]|]. cbn. split; [done|]. split; [done|]. split; [done|]. split; [lia|done]. }
    assert (Hb0 : built w (new_node v w) (v :: vs) (2 * 0 + 1)).
    { constructor; cbn; intros; rewrite ?Nat.add_0_r.
      - lia.
      - assert (j = 0) as -> by lia. rewrite Nat.add_0_r, fn_lookup_insert. done.
      - assert (j = 0) as -> by lia. rewrite Nat.add_0_r, fn_lookup_insert. done.
      - assert (j = 0) as -> by lia. rewrite Nat.add_0_r, fn_lookup_insert. done.
      - by rewrite fn_lookup_insert.
      - lia.
      - lia.
      - unfold same_at. cbn. by rewrite !fn_lookup_insert_ne by lia. }
    destruct (build_loop_spec w (length vs) vs (v :: vs) 0 (new_node v w)) as (w'&E&Hb); [done|done|by cbn; rewrite drop_0|cbn; lia|].
    change (0 + 1) with 1 in E. cbn [seq map] in E. rewrite Nat.add_0_r in E.
    set (t := heap_tree (S (length (v :: vs))) (t_n w) 0 (length (v :: vs))).
    exists t, w'. assert (Hroot : root t = Some (t_n w)). { unfold t. cbn. by rewrite Nat.add_0_r. }
    assert (HL : level_order t = seq (t_n w) (length (v :: vs))) by apply heap_level_order.
    pose proof (level_order_perm t) as HP. rewrite HL in HP.
    split.
    { cbn [BuildTree]. unfold bind at 1. change (NewNode v w) with (Ok (Some (t_n w), new_node v w)). cbn [fst snd].
      unfold bind at 1. rewrite E, Hroot. done. }
    split.
    { split; [|rewrite <- HP; apply NoDup_seq].
      pose proof (built_rep _ _ _ Hb (S (length (v :: vs))) 0) as Hr. rewrite Nat.add_0_r, (b_root _ _ _ _ Hb) in Hr.
      rewrite Hroot. apply Hr; cbn; lia. }
    split.
    { rewrite HL. apply list_eq. intros i. rewrite list_lookup_fmap.
      destruct (decide (i < length (v :: vs))) as [Hi|Hi].
      - rewrite lookup_seq_lt by done. cbn [fmap option_fmap option_map]. symmetry. by apply (b_val _ _ _ _ Hb).
      - rewrite lookup_seq_ge, lookup_ge_None_2 by lia. done. }
    split; [apply (b_old _ _ _ _ Hb)|]. split; [done|]. split; [apply (b_n _ _ _ _ Hb)|done].
  Qed.
  Lemma BuildTree_forest (vals : list T) w ts : forest w ts -> exists t w',
    BuildTree vals w = Ok (root t, w') /\ forest w' (opt_tree t ++ ts).
  Proof.
    intros (H1&H2&H3). destruct (BuildTree_spec vals w) as (t&w'&E&Hw&_&Hold&Hp&Hn&_). exists t, w'. split; [done|].
    split; [|split].
    - intros t' Ht'. apply elem_of_app in Ht' as [Ht'|Ht'].
      + destruct t; cbn in Ht'; [by apply elem_of_nil in Ht'|]. apply elem_of_list_singleton in Ht' as ->. split; [done|]. apply Hw.
      + destruct (H1 t' Ht') as [Hl Hr]. split; [done|]. eapply rep_frame; [done|]. intros x Hx. apply Hold. apply H3.
        rewrite elem_of_list_In, in_concat. exists (preorder t'). rewrite <- !elem_of_list_In. split; [|done].
        apply elem_of_list_fmap. eauto.
    - rewrite map_app, concat_app, concat_opt. rewrite NoDup_app. split; [apply Hw|]. split; [|done].
      intros x Hx Hx2. apply H3 in Hx2. rewrite Hp in Hx. apply elem_of_seq in Hx. lia.
    - intros x. rewrite map_app, concat_app, concat_opt, elem_of_app, H3, Hp, elem_of_seq, Hn. lia.
  Qed.
End build.

Section draw.
  Context {T : Type}.
  Implicit Types (w : tworld T) (vs : list T).
  Lemma split_vals vs : forall cur ps, split_lines cur (flat_map (fun v => [PVal v; PTab]) vs ++ ps) = split_lines (cur ++ vs) ps.
  Proof.
    induction vs as [|v vs IH]; intros cur ps; cbn; [by rewrite app_nil_r|]. rewrite IH, <- app_assoc. done.
  Qed.
  (** Rows of sizes 2k, 2k+2, ... come out one per line. *)
  Lemma split_rows (rs : list (list T)) : forall k fuel, length rs < fuel -> 1 <= k ->
    (forall i r, rs !! i = Some r -> S i < length rs -> length r = 2 * (k + i)) ->
    (forall i r, rs !! i = Some r -> S i = length rs -> 0 < length r <= 2 * (k + i)) ->
    split_lines [] (lines fuel k (concat rs)) = rs.
  Proof.
    induction rs as [|r rs IH]; intros k [|fuel] Hf Hk H1 H2; cbn [length] in Hf; try lia.
    - cbn [concat lines]. destruct (Nat.ltb_spec (length (@nil T)) (2 * k)) as [_|HH]; [done|cbn in HH; lia].
    - destruct rs as [|r2 rs].
      + specialize (H2 0 r eq_refl eq_refl). rewrite Nat.add_0_r in H2. cbn [concat lines]. rewrite app_nil_r.
        destruct (Nat.ltb_spec (length r) (2 * k)).
        * rewrite <- (app_nil_r (flat_map _ _)), split_vals. cbn. destruct r; [cbn in H2; lia|done].
        * rewrite take_ge, drop_ge by lia. rewrite split_vals. cbn. f_equal. destruct fuel as [|fuel]; [done|]. cbn [lines].
          destruct (Nat.ltb_spec (length (@nil T)) (2 * S k)) as [_|HH]; [done|cbn in HH; lia].
      + pose proof (H1 0 r eq_refl) as E. rewrite Nat.add_0_r in E. cbn [length] in E. specialize (E ltac:(lia)).
        change (concat (r :: r2 :: rs)) with (r ++ concat (r2 :: rs)). cbn [lines].
        destruct (Nat.ltb_spec (length (r ++ concat (r2 :: rs))) (2 * k)) as [Hlt|_]; [rewrite app_length in Hlt; lia|].
        rewrite take_app_alt, drop_app_alt by done. rewrite split_vals. cbn [app split_lines]. f_equal.
        apply IH; [cbn in *; lia|lia| |].
        * intros i q Hq Hi. rewrite (H1 (S i) q Hq) by (cbn in *; lia). lia.
        * intros i q Hq Hi. pose proof (H2 (S i) q Hq ltac:(cbn in *; lia)). lia.
  Qed.
  Lemma drawn_rows w t : t <> Leaf ->
    (forall d, 1 <= d -> S d < rows t -> length (row d t) = 2 * d) -> length (row (rows t - 1) t) <= Nat.max 1 (2 * (rows t - 1)) ->
    one_row_per_line w t (drawn (map (t_val w) (level_order t))).
  Proof.
    intros Ht H1 H2. destruct t as [|l x r]; [done|]. set (t := Node l x r) in *. unfold one_row_per_line.
    assert (E : map (fun d => map (t_val w) (row d t)) (seq 0 (rows t)) = [t_val w x] :: map (fun d => map (t_val w) (row d t)) (seq 1 (rows t - 1))).
    { subst t. cbn [rows]. cbn [seq map]. rewrite Nat.sub_1_r. done. }
    assert (EL : map (t_val w) (level_order t) = t_val w x :: concat (map (fun d => map (t_val w) (row d t)) (seq 1 (rows t - 1)))).
    { unfold level_order. rewrite concat_map, map_map, E. done. }
    rewrite E, EL. cbn [drawn split_lines app]. f_equal.
    assert (HL : forall i r0, map (fun d => map (t_val w) (row d t)) (seq 1 (rows t - 1)) !! i = Some r0 ->
      i < rows t - 1 /\ r0 = map (t_val w) (row (1 + i) t)).
    { intros i r0 Hi. rewrite list_lookup_fmap in Hi. destruct (seq 1 (rows t - 1) !! i) as [d|] eqn:Ed; [|done].
      cbn in Hi. apply lookup_seq in Ed as [-> ?]. injection Hi as <-. done. }
    apply split_rows; rewrite ?map_length, ?seq_length.
    - apply le_n_S. clear -t. assert (forall rs : list (list T), (forall r, r ∈ rs -> r <> []) -> length rs <= length (concat rs)) as K.
      { induction rs as [|r0 rs IH]; cbn; [lia|]. intros H. rewrite app_length. destruct r0; [by destruct (H []); [left|]|].
        cbn. specialize (IH ltac:(intros; apply H; by right)). lia. }
      specialize (K (map (fun d => map (t_val w) (row d t)) (seq 1 (rows t - 1)))). rewrite map_length, seq_length in K. apply K.
      intros r0 Hr. apply elem_of_list_fmap in Hr as (d&->&Hd). apply elem_of_seq in Hd. intros E.
      apply map_eq_nil in E. pose proof (proj2 (row_lt t d)) as K2. rewrite E in K2. apply K2; [lia|done].
    - lia.
    - intros i r0 Hi Hlt. apply HL in Hi as [Hi ->]. rewrite map_length, H1 by lia. lia.
    - intros i r0 Hi Hlt. apply HL in Hi as [Hi ->]. rewrite map_length. replace (rows t - 1) with (1 + i) in H2 by lia. split; [|lia].
      pose proof (proj2 (row_lt t (1 + i))). destruct (row (1 + i) t); [|cbn; lia]. exfalso. apply H; [lia|done].
  Qed.
End draw.
