(** vec: what the slices handed out by Slice and SliceCut share with the vector. *)
From Coq Require Import ZifyBool ZifyNat.
From Verif Require Import Base VecModel VecSpec VecProofs VecSteps VecHistory VecQuery.

Section share.
  Context {T : Type} (zero : T) (growth : nat -> nat -> nat -> nat).
  Notation W := (vworld T).
  Notation d_of w v := (v_d (w_vec w v)).
  Implicit Types (w : W) (v u : nat) (x : T) (s : slice).

  (** What SliceCut returns, if it is not nil. *)
  Definition part (d : slice) (i j : Z) : slice :=
    mk_slice (s_arr d) (s_off d + Z.to_nat i) (Z.to_nat (j - i)) (s_cap d - Z.to_nat i).

  Lemma SliceCut_part w v i j s w1 : wf w (d_of w v) -> SliceCut v i j w = Ok (s, w1) ->
    w1 = w /\ ((s = nil_slice /\ good_range i j (vseq w v) = false) \/
      (s = part (d_of w v) i j /\ good_range i j (vseq w v) = true)).
  Proof.
    intros Hwf. pose proof (wf_len_cap _ _ Hwf). pose proof (contents_length w _ Hwf) as Hl.
    unfold SliceCut, bind. rewrite Len_eq. cbv beta iota. unfold good_range, vseq. rewrite Hl.
    destruct (_ || _ || _)%bool eqn:E.
    - intros [= <- <-]. split; [done|]. left. split; [done|lia].
    - unfold get_d, reslice. replace (_ && _ && _)%bool with true by lia. intros [= <- <-].
      split; [done|]. right. split; [done|lia].
  Qed.

  Lemma part_wf w d i j : wf w d -> (0 <= i <= j)%Z -> (j <= Z.of_nat (s_len d))%Z -> wf w (part d i j).
  Proof. intros Hwf ? ?. pose proof (wf_len_cap _ _ Hwf). unfold wf, part in *. cbn. destruct (s_arr d); lia. Qed.

  Lemma part_win w d i j : win w (part d i j) = drop (Z.to_nat i) (win w d).
  Proof.
    unfold win, part. cbn. destruct (s_arr d) as [a|]; [|by rewrite drop_nil].
    rewrite <- drop_drop. by rewrite skipn_firstn_comm.
  Qed.

  (** Writing through the part is writing to the whole. *)
  Lemma part_write w d i j k vs w' : wf w d -> (0 <= i <= j)%Z -> (j <= Z.of_nat (s_len d))%Z ->
    Z.to_nat i + k + length vs <= s_cap d ->
    write_at (part d i j) k vs w = Ok (tt, w') -> write_at d (Z.to_nat i + k) vs w = Ok (tt, w').
  Proof.
    intros Hwf Hi Hj Hk. unfold write_at, part. cbn. destruct (s_arr d); [|done]. intros [= <-]. by rewrite Nat.add_assoc.
  Qed.

  Lemma drop_insert_shift n k x (l : list T) : drop n (<[n + k := x]> l) = <[k := x]> (drop n l).
  Proof. apply list_eq. intros m. rewrite lookup_drop. destruct (decide (m = k)) as [->|Hne].
    - destruct (decide (n + k < length l)).
      + rewrite !list_lookup_insert; [done|rewrite drop_length; lia|done].
      + rewrite !lookup_ge_None_2; [done| |]; rewrite ?insert_length, ?drop_length; lia.
    - rewrite !list_lookup_insert_ne, lookup_drop by lia. done.
  Qed.

  Lemma write_through w v i j k x s w1 w' : wf w (d_of w v) -> SliceCut v i j w = Ok (s, w1) ->
    user_write s k x w = Ok (tt, w') ->
    (0 <= k < j - i)%Z /\ vseq w' v = <[Z.to_nat (i + k) := x]> (vseq w v) /\ w_vec w' = w_vec w /\
    (forall a, s_arr (d_of w v) <> Some a -> w_arr w' a = w_arr w a) /\ w_an w' = w_an w /\ w_vn w' = w_vn w.
  Proof.
    intros Hwf Hs Hu. pose proof (wf_len_cap _ _ Hwf) as Hlc. pose proof (contents_length w _ Hwf) as Hl.
    pose proof (win_length w _ Hwf) as Hwl.
    destruct (SliceCut_part _ _ _ _ _ _ Hwf Hs) as [-> [[-> _]|[-> Hg]]].
    { unfold user_write, set_idx in Hu. cbn [s_len nil_slice] in Hu. replace (_ && _)%bool with false in Hu by lia. done. }
    unfold good_range, vseq in Hg. rewrite Hl in Hg.
    unfold user_write, set_idx in Hu. destruct (_ && _)%bool eqn:Hk; [|done]. unfold part in Hk; cbn [s_len] in Hk.
    fold (part (d_of w v) i j) in Hu. split; [lia|].
    apply part_write in Hu; [|done|lia|lia|cbn [length]; lia].
    destruct (write_at_spec w (d_of w v) (Z.to_nat i + Z.to_nat k) [x] Hwf) as (w2&E&A1&A2&A3&A4&_&A6); [cbn; lia|].
    rewrite E in Hu. injection Hu as ->. split; [|auto].
    unfold vseq. rewrite A2, !contents_win, A6 by done. rewrite take_splice_set by lia. f_equal. lia.
  Qed.

  Lemma seen_through w v i j k x s w1 b w' : wf w (d_of w v) -> SliceCut v i j w = Ok (s, w1) ->
    (0 <= k < j - i)%Z -> s <> nil_slice -> Set_ v (i + k) x w = Ok (b, w') ->
    b = true /\ contents w' s = <[Z.to_nat k := x]> (contents w s).
  Proof.
    intros Hwf Hs Hk Hn Hset. pose proof (wf_len_cap _ _ Hwf) as Hlc. pose proof (contents_length w _ Hwf) as Hl.
    pose proof (win_length w _ Hwf) as Hwl.
    destruct (SliceCut_part _ _ _ _ _ _ Hwf Hs) as [-> [[-> _]|[-> Hg]]]; [done|].
    unfold good_range, vseq in Hg. rewrite Hl in Hg.
    unfold Set_, bind in Hset. rewrite Len_eq in Hset. cbv beta iota in Hset.
    replace (_ || _)%bool with false in Hset by lia. unfold get_d in Hset. cbv beta iota in Hset.
    destruct (set_idx (d_of w v) (i + k) x w) as [[[] w2]| |] eqn:E; [|done..]. injection Hset as <- <-. split; [done|].
    unfold set_idx in E. replace (_ && _)%bool with true in E by lia.
    destruct (write_at_spec w (d_of w v) (Z.to_nat (i + k)) [x] Hwf) as (w3&E3&A1&A2&A3&A4&A5&A6); [cbn; lia|].
    rewrite E3 in E. injection E as ->.
    assert (Hlen : s_len (part (d_of w v) i j) <= s_cap (part (d_of w v) i j)) by (unfold part; cbn [s_len s_cap]; lia).
    rewrite !contents_win, !part_win, A6 by done. unfold part; cbn [s_len].
    replace (Z.to_nat (i + k)) with (Z.to_nat i + Z.to_nat k) by lia.
    assert (Hsp : splice (Z.to_nat i + Z.to_nat k) [x] (win w (d_of w v)) = <[Z.to_nat i + Z.to_nat k := x]> (win w (d_of w v))).
    { rewrite <- (firstn_all2 (n := length (win w (d_of w v))) (splice _ _ _)).
      2: { rewrite splice_length; [done|cbn; lia]. }
      rewrite take_splice_set by lia. by rewrite firstn_all. }
    rewrite Hsp, drop_insert_shift. apply take_insert_lt. lia.
  Qed.

  (** Appending to the part: in place as long as the capacity allows. *)
  Lemma take_splice n k vs (l : list T) : k + length vs <= length l -> n <= length l -> k <= n ->
    take n (splice k vs l) = take n (take k (take n l) ++ vs ++ drop (k + length vs) (take n l)).
  Proof.
    intros H1 H2 H3. apply list_eq. intros m. destruct (decide (m < n)) as [Hm|Hm].
    2: { rewrite !lookup_ge_None_2; [done| |]; rewrite take_length; lia. }
    rewrite !lookup_take by done. rewrite lookup_splice by lia.
    change (take k (take n l) ++ vs ++ drop (k + length vs) (take n l)) with (splice k vs (take n l)).
    rewrite lookup_splice by (rewrite take_length; lia).
    repeat case_decide; try done; by rewrite lookup_take.
  Qed.

  Lemma append_part w v i j vs s w1 s' w' : wf w (d_of w v) -> SliceCut v i j w = Ok (s, w1) -> s <> nil_slice ->
    go_append zero growth s vs w = Ok (s', w') ->
    contents w' s' = contents w s ++ vs /\ w_vec w' = w_vec w /\
    vseq w' v = if (Z.to_nat j + length vs <=? s_cap (d_of w v))%nat
      then take (length (vseq w v)) (take (Z.to_nat j) (vseq w v) ++ vs ++ drop (Z.to_nat j + length vs) (vseq w v))
      else vseq w v.
  Proof.
    intros Hwf Hs Hn Ha. pose proof (wf_len_cap _ _ Hwf) as Hlc. pose proof (contents_length w _ Hwf) as Hl.
    pose proof (win_length w _ Hwf) as Hwl.
    destruct (SliceCut_part _ _ _ _ _ _ Hwf Hs) as [-> [[-> _]|[-> Hg]]]; [done|].
    unfold good_range, vseq in Hg. rewrite Hl in Hg.
    pose proof (part_wf w (d_of w v) i j Hwf ltac:(lia) ltac:(lia)) as Hpw.
    destruct (append_spec zero growth w (part (d_of w v) i j) vs Hpw) as (s2&w2&E&Hstep&Hc&_). rewrite E in Ha. injection Ha as <- <-.
    split; [done|]. split; [by apply (ss_vec _ _ _ _ Hstep)|].
    unfold go_append in E. cbn [part s_len s_cap] in E.
    destruct (Nat.leb_spec (Z.to_nat j + length vs) (s_cap (d_of w v))) as [Hfit|Hfit].
    - replace (_ <=? _)%nat with true in E by lia. unfold bind in E.
      destruct (write_at _ _ vs w) as [[[] w3]| |] eqn:Ew; [|done..]. injection E as <- <-.
      apply part_write in Ew; [|done|lia|lia|lia]. replace (Z.to_nat i + Z.to_nat (j - i)) with (Z.to_nat j) in Ew by lia.
      destruct (write_at_spec w (d_of w v) (Z.to_nat j) vs Hwf) as (w4&E4&A1&A2&A3&A4&A5&A6); [lia|].
      rewrite E4 in Ew. injection Ew as ->. unfold vseq. rewrite A2, Hl, !contents_win, A6 by done.
      apply take_splice; lia.
    - replace (_ <=? _)%nat with false in E by lia. unfold alloc in E. injection E as <- <-.
      unfold vseq, contents. cbn. unfold wf in Hwf. destruct (s_arr (d_of w v)) as [a|]; [|done].
      by rewrite fn_lookup_insert_ne by lia.
  Qed.

  (** A Push that does not fit moves the vector to a new array. *)
  Lemma grow_new w s n s' w' : wf w s -> (Z.of_nat (s_cap s) < Z.of_nat (s_len s) + n)%Z ->
    s_Grow zero growth s n w = Ok (s', w') ->
    s_arr s' = Some (w_an w) /\ (forall a, a < w_an w -> w_arr w' a = w_arr w a) /\ w_vec w' = w_vec w /\ w_an w' = S (w_an w).
  Proof.
    intros Hwf Hn. pose proof (wf_len_cap _ _ Hwf) as Hlc. unfold s_Grow. replace (n <? 0)%Z with false by lia.
    replace (_ <? _)%nat with true by lia. unfold bind at 1, reslice at 1. replace (_ && _)%bool with true by lia.
    unfold bind, go_append. cbn [s_len s_cap]. rewrite replicate_length.
    replace (_ <=? _)%nat with false by lia. unfold alloc, reslice. cbn [s_cap s_arr].
    destruct (_ && _)%bool; [|done]. intros [= <- <-]. cbn. split; [done|]. split; [|done].
    intros a Ha. by rewrite fn_lookup_insert_ne by lia.
  Qed.

  Lemma Push_detaches w v vs r w' : inv w -> v < w_vn w ->
    s_cap (d_of w v) < s_len (d_of w v) + length vs -> Push zero growth v vs w = Ok (r, w') ->
    s_arr (d_of w' v) = Some (w_an w) /\ (forall a, a < w_an w -> w_arr w' a = w_arr w a).
  Proof.
    intros Hi Hv Hcap. set (d := d_of w v) in *. pose proof (i_wf _ Hi v Hv) as Hd. fold d in Hd.
    unfold Push, bind at 1. rewrite Len_eq. fold d. unfold bind at 1, Cap, bind at 1, get_d, ret. fold d.
    replace (_ >? _)%Z with true by lia.
    destruct (grow_spec zero growth w d (Z.of_nat (length vs)) Hd ltac:(lia)) as (s1&w1&E1&S1&C1&L1&Hc1).
    destruct (grow_new w d (Z.of_nat (length vs)) s1 w1 Hd ltac:(lia) E1) as (Ha&Hold&Hvec&Han).
    unfold bind at 1, Grow, bind at 1, get_d. fold d. unfold bind at 1. rewrite E1.
    unfold set_d at 1. unfold bind, get_d. cbn. rewrite fn_lookup_insert. cbn.
    unfold go_append. cbn. replace (_ <=? _)%nat with true by lia.
    unfold bind, write_at. rewrite Ha. cbn. intros [= _ <-]. cbn. rewrite fn_lookup_insert. cbn. split; [done|].
    intros a Hlt. rewrite fn_lookup_insert_ne by lia. by apply Hold.
  Qed.

  Lemma part_same w w' v i j : wf w (d_of w v) -> (forall a, a < w_an w -> w_arr w' a = w_arr w a) ->
    contents w' (part (d_of w v) i j) = contents w (part (d_of w v) i j).
  Proof.
    intros Hwf Ha. unfold contents, part. cbn. unfold wf in Hwf. destruct (s_arr _); [|done]. rewrite Ha; [done|lia].
  Qed.

  Lemma other_write w s v k x w' : (forall a, s_arr s = Some a -> s_arr (d_of w v) <> Some a) ->
    user_write s k x w = Ok (tt, w') -> vseq w' v = vseq w v.
  Proof.
    intros Ha. unfold user_write, set_idx, write_at. destruct (_ && _)%bool; [|done].
    destruct (s_arr s) as [a|] eqn:E; [|done]. intros [= <-]. unfold vseq, contents. cbn.
    destruct (s_arr (d_of w v)) as [b|] eqn:Eb; [|done]. rewrite fn_lookup_insert_ne; [done|].
    intros ->. by apply (Ha b).
  Qed.

  Lemma other_set w s v i x b w' : (forall a, s_arr s = Some a -> s_arr (d_of w v) <> Some a) ->
    Set_ v i x w = Ok (b, w') -> contents w' s = contents w s.
  Proof.
    intros Ha. unfold Set_, bind. rewrite Len_eq. cbv beta iota. destruct (_ || _)%bool; [by intros [= _ <-]|].
    unfold get_d, set_idx, write_at, ret. destruct (_ && _)%bool; [|done].
    destruct (s_arr (d_of w v)) as [a|] eqn:E; [|done]. intros [= _ <-]. unfold contents. cbn.
    destruct (s_arr s) as [c|] eqn:Ec; [|done]. rewrite fn_lookup_insert_ne; [done|].
    intros ->. by destruct (Ha c).
  Qed.

  (** Appending to the slice and pushing use the same free room. *)
  Lemma append_then_push w v vs ys s' w1 r w2 : wf w (d_of w v) ->
    s_len (d_of w v) + length vs <= s_cap (d_of w v) -> length ys <= length vs ->
    go_append zero growth (d_of w v) vs w = Ok (s', w1) -> Push zero growth v ys w1 = Ok (r, w2) ->
    contents w1 s' = vseq w v ++ vs /\ vseq w2 v = vseq w v ++ ys /\
    contents w2 s' = vseq w v ++ ys ++ drop (length ys) vs.
  Proof.
    intros Hwf Hfit Hys Ha Hp. pose proof (wf_len_cap _ _ Hwf) as Hlc. pose proof (contents_length w _ Hwf) as Hl.
    pose proof (win_length w _ Hwf) as Hwl. set (d := d_of w v) in *.
    destruct (append_spec zero growth w d vs Hwf) as (s2&wx&E&Hstep&Hc&Hlen&Hin). rewrite E in Ha. injection Ha as -> ->.
    destruct (Hin ltac:(lia)) as (Ea&Ec&Eo&Hwin).
    split; [done|].
    assert (Hd1 : d_of w1 v = d) by (by rewrite (ss_vec _ _ _ _ Hstep)).
    assert (Hwf1 : wf w1 d) by (eapply wf_step; [apply (ss_len _ _ _ _ Hstep)|apply (ss_an _ _ _ _ Hstep)|done]).
    destruct (append_spec zero growth w1 d ys Hwf1) as (s3&w3&E3&Hstep3&Hc3&Hlen3&Hin3).
    destruct (Hin3 ltac:(lia)) as (Ea3&Ec3&Eo3&Hwin3).
    unfold Push, bind, Cap, get_d, ret in Hp. rewrite Len_eq in Hp. unfold bind in Hp. rewrite Hd1 in Hp.
    replace (_ >? _)%Z with false in Hp by lia. cbv beta iota in Hp. rewrite ?Hd1 in Hp. rewrite E3 in Hp. unfold set_d in Hp. injection Hp as <- <-.
    assert (Hw1 : contents w1 d = vseq w v).
    { rewrite contents_win, Hwin by done. unfold splice. rewrite take_app_alt by (rewrite take_length; lia).
      unfold vseq. fold d. by rewrite contents_win. }
    split.
    - unfold vseq at 1. cbn. rewrite fn_lookup_insert. cbn. unfold contents in *. cbn. rewrite Hc3. f_equal. exact Hw1.
    - assert (Hs : win w3 d = splice (s_len d) ys (splice (s_len d) vs (win w d))) by (by rewrite Hwin3, Hwin).
      assert (Hcs : contents w3 s' = take (s_len d + length vs) (win w3 d)).
      { rewrite contents_win by lia. rewrite Hlen. f_equal. unfold win. rewrite Ea, Ec, Eo. done. }
      unfold contents in Hcs |- *. cbn. rewrite Hcs, Hs. clear Hcs.
      unfold vseq. fold d. rewrite contents_win by done.
      apply list_eq. intros m. destruct (decide (m < s_len d + length vs)) as [Hm|Hm].
      2: { rewrite !lookup_ge_None_2; [done| |]; rewrite ?app_length, ?take_length, ?drop_length; lia. }
      rewrite lookup_take by done. rewrite lookup_splice by (rewrite splice_length; lia).
      rewrite lookup_splice by lia.
      assert (Hlt : length (take (s_len d) (win w d)) = s_len d) by (rewrite take_length; lia).
      destruct (decide (m < s_len d)).
      { rewrite lookup_app_l by lia. by rewrite lookup_take. }
      rewrite lookup_app_r, Hlt by lia. destruct (decide (m < s_len d + length ys)).
      { by rewrite lookup_app_l by lia. }
      rewrite decide_True by done. rewrite lookup_app_r, lookup_drop by lia. f_equal. lia.
  Qed.
End share.
