(** Proofs about the cells behind the last element. *)
From Coq Require Import ZifyBool ZifyNat.
From Verif Require Import Base VecModel VecSpec VecProofs VecSteps VecHeldSpec.

Section held.
  Context {T : Type} (zero : T) (growth : nat -> nat -> nat -> nat).
  Notation W := (vworld T).
  Implicit Types (w : W) (v u : nat) (l vs : list T) (s : slice).
  Notation d_of w v := (v_d (w_vec w v)).

  Lemma held_win w v : held w v = win w (d_of w v).
  Proof. done. Qed.
  Lemma vseq_length w v : wf w (d_of w v) -> length (vseq w v) = s_len (d_of w v).
  Proof. apply contents_length. Qed.
  Lemma held_split w v : wf w (d_of w v) -> held w v = vseq w v ++ behind w v.
  Proof.
    intros H. unfold behind. rewrite vseq_length by done. rewrite held_win. unfold vseq.
    rewrite contents_win by (by eapply wf_len_cap). by rewrite take_drop.
  Qed.
  Lemma set_d_eq v s w : set_d v s w = Ok (tt, mk_vworld (w_arr w) (w_an w) (<[v := mk_vec s (v_less (w_vec w v)) (v_equal (w_vec w v))]> (w_vec w)) (w_vn w)).
  Proof. done. Qed.
  Lemma reslice_eq s i j w : (0 <= i <= j)%Z -> (j <= Z.of_nat (s_cap s))%Z ->
    reslice s i j w = Ok (mk_slice (s_arr s) (s_off s + Z.to_nat i) (Z.to_nat (j - i)) (s_cap s - Z.to_nat i), w).
  Proof. intros. unfold reslice. by replace (_ && _)%bool with true by lia. Qed.

  (** A new header over the same cells, of length n, after writes to arrays. *)
  Lemma behind_set w w1 v s n w' : set_d v s w1 = Ok (tt, w') -> wf w (d_of w v) -> w_vec w1 = w_vec w -> w_an w1 = w_an w ->
    (forall a, length (w_arr w1 a) = length (w_arr w a)) ->
    s_arr s = s_arr (d_of w v) -> s_off s = s_off (d_of w v) -> s_cap s = s_cap (d_of w v) -> s_len s = n -> n <= s_cap (d_of w v) ->
    behind w' v = drop n (win w1 (d_of w v)).
  Proof.
    intros [= <-] Hwf Ev Ean El E1 E2 E3 E4 Hn. unfold behind. rewrite vseq_length; cbn; rewrite fn_lookup_insert; cbn [v_d].
    - rewrite held_win. cbn. rewrite fn_lookup_insert. cbn [v_d]. rewrite E4. unfold win. cbn. by rewrite E1, E2, E3.
    - unfold wf in *. cbn. rewrite E1, E2, E3. destruct (s_arr (d_of w v)); [rewrite El, Ean|]; lia.
  Qed.
  Lemma drop_splice k vs l n : k + length vs <= n -> n <= length l -> drop n (splice k vs l) = drop n l.
  Proof.
    intros H1 H2. apply list_eq. intros i. rewrite !lookup_drop, lookup_splice by lia. repeat case_decide; try lia. done.
  Qed.
  (** Writing cells below n of the window leaves those from n on. *)
  Lemma write_at_above w s i vs w' n : write_at s i vs w = Ok (tt, w') -> wf w s -> i + length vs <= n -> n <= s_cap s ->
    w_vec w' = w_vec w /\ w_an w' = w_an w /\ (forall a, length (w_arr w' a) = length (w_arr w a)) /\ drop n (win w' s) = drop n (win w s).
  Proof.
    intros H Hwf Hi Hn. destruct (write_at_spec w s i vs Hwf ltac:(lia)) as (w1&E1&A1&A2&A3&A4&A5&A6).
    rewrite E1 in H. injection H as <-. split; [done|]. split; [done|]. split; [done|]. rewrite A6. apply drop_splice; [done|].
    by rewrite win_length.
  Qed.
  (** The cells from n on, n at most the number of elements. *)
  Lemma drop_held w v n : wf w (d_of w v) -> n <= length (vseq w v) -> drop n (win w (d_of w v)) = drop n (vseq w v) ++ behind w v.
  Proof. intros Hwf Hn. rewrite <- held_win, held_split by done. by rewrite drop_app_le. Qed.

  Lemma Clear_behind w v w' : wf w (d_of w v) -> Clear v w = Ok (tt, w') -> behind w' v = vseq w v ++ behind w v.
  Proof.
    intros Hwf. unfold Clear, bind, get_d. rewrite reslice_eq by lia. intros H.
    rewrite (behind_set w w v _ 0 w' H Hwf eq_refl eq_refl (fun _ => eq_refl) eq_refl ltac:(cbn; lia) ltac:(cbn; lia) eq_refl ltac:(lia)). by rewrite drop_held by (done || lia).
  Qed.

  (** Writing through a slice that starts k cells later. *)
  Lemma write_at_shift s k n c i vs w : write_at (mk_slice (s_arr s) (s_off s + k) n c) i vs w = write_at s (k + i) vs w.
  Proof. unfold write_at. cbn. by rewrite Nat.add_assoc. Qed.

  Lemma Remove_behind w v i r w' : wf w (d_of w v) -> (0 <= i < Z.of_nat (length (vseq w v)))%Z -> Remove zero v i w = Ok (r, w') ->
    behind w' v = drop (length (vseq w v) - 1) (vseq w v) ++ behind w v.
  Proof.
    intros Hwf Hi H. pose proof (wf_len_cap _ _ Hwf) as Hlc. pose proof (vseq_length w v Hwf) as Hl. rewrite Hl in Hi.
    rewrite <- drop_held by (done || lia). set (d := d_of w v) in *.
    unfold Remove in H. unfold bind at 1 in H. unfold Len, bind at 1, get_d at 1, ret at 1 in H. fold d in H.
    replace (_ || _)%bool with false in H by lia. unfold bind at 1, get_d at 1 in H. fold d in H. unfold bind at 1 in H.
    destruct (idx d i w) as [[e w0]| |] eqn:Ei; [|done..].
    assert (w0 = w) as ->. { unfold idx in Ei. destruct (getZ _ _); [|done]. by injection Ei. }
    destruct (Z.eqb_spec i (Z.of_nat (s_len d) - 1)) as [Heq|Hne].
    - unfold bind at 1 2 in H. rewrite reslice_eq in H by lia.
      destruct (set_d _ _ _) as [[[] w1]| |] eqn:Es in H; [|done..]. injection H as _ <-.
      rewrite (behind_set w w v _ (s_len d - 1) w1 Es Hwf eq_refl eq_refl (fun _ => eq_refl) eq_refl ltac:(cbn; fold d; lia) ltac:(cbn; fold d; lia) ltac:(cbn; fold d; lia) ltac:(fold d; lia)). by rewrite Hl.
    - unfold bind at 1 2 in H. unfold reslice_from at 1 in H. rewrite reslice_eq in H by lia.
      unfold bind at 1 in H. unfold reslice_from at 1 in H. rewrite reslice_eq in H by lia.
      unfold bind at 1 in H. unfold go_copy, bind at 1, read in H.
      match type of H with context [write_at ?a ?b ?c ?d] => destruct (write_at a b c d) as [[[] w1]| |] eqn:Ew end; [|done..].
      unfold bind at 1 in H. rewrite reslice_eq in H by lia.
      destruct (set_d _ _ _) as [[[] w2]| |] eqn:Es in H; [|done..]. injection H as _ <-.
      rewrite write_at_shift in Ew. cbn [s_len] in Ew.
      match type of Ew with write_at _ _ ?vs _ = _ => assert (length vs <= s_len d - Z.to_nat i - 1) as Hvs end.
      { rewrite take_length. unfold contents. cbn. destruct (s_arr d); cbn; [|lia]. rewrite take_length. lia. }
      destruct (write_at_above w d _ _ w1 (s_len d - 1) Ew Hwf ltac:(lia) ltac:(lia)) as (A1&A2&A3&A4).
      rewrite (behind_set w w1 v _ (s_len d - 1) w2 Es Hwf A1 A2 A3 eq_refl ltac:(cbn; fold d; lia) ltac:(cbn; fold d; lia) ltac:(cbn; fold d; lia) ltac:(fold d; lia)). fold d. by rewrite A4, Hl.
  Qed.
  Lemma Remove_out w v i r w' : ~ (0 <= i < Z.of_nat (length (vseq w v)))%Z -> wf w (d_of w v) -> Remove zero v i w = Ok (r, w') -> w' = w.
  Proof.
    intros Hi Hwf H. rewrite vseq_length in Hi by done. unfold Remove in H. unfold bind at 1 in H. unfold Len, bind at 1, get_d at 1, ret at 1 in H.
    replace (_ || _)%bool with true in H by lia. by injection H.
  Qed.
  Lemma Pop_behind w v r w' : wf w (d_of w v) -> Pop zero v w = Ok (r, w') ->
    behind w' v = drop (length (vseq w v) - 1) (vseq w v) ++ behind w v.
  Proof.
    intros Hwf H. unfold Pop, bind in H. unfold Len at 1, bind, get_d, ret in H. pose proof (vseq_length w v Hwf) as Hl.
    destruct (decide (s_len (d_of w v) = 0)) as [H0|H0].
    - apply Remove_out in H as ->; [|lia|done]. destruct (vseq w v); [done|cbn in Hl; lia].
    - eapply Remove_behind; [done| |done]. lia.
  Qed.
  (** What Remove and Pop leave in the cells. *)
  Lemma Pop_held w v r w' : wf w (d_of w v) -> Pop zero v w = Ok (r, w') -> held w' v = held w v.
  Proof.
    intros Hwf H. unfold Pop, bind in H. unfold Len at 1, bind, get_d, ret in H. pose proof (vseq_length w v Hwf) as Hl.
    destruct (decide (s_len (d_of w v) = 0)) as [H0|H0].
    { apply Remove_out in H as ->; [done|lia|done]. }
    pose proof (wf_len_cap _ _ Hwf) as Hlc. set (d := d_of w v) in *.
    unfold Remove in H. unfold bind at 1 in H. unfold Len, bind at 1, get_d at 1, ret at 1 in H. fold d in H.
    replace (_ || _)%bool with false in H by lia. unfold bind at 1, get_d at 1 in H. fold d in H. unfold bind at 1 in H.
    destruct (idx d _ w) as [[e w0]| |] eqn:Ei; [|done..].
    assert (w0 = w) as ->. { unfold idx in Ei. destruct (getZ _ _); [|done]. by injection Ei. }
    rewrite Z.eqb_refl in H. unfold bind at 1 2 in H. rewrite reslice_eq in H by lia. cbn in H. injection H as _ <-.
    rewrite !held_win. cbn. rewrite fn_lookup_insert. cbn. unfold win. cbn. fold d. by rewrite Nat.add_0_r, Nat.sub_0_r.
  Qed.
  Lemma Clear_held w v w' : wf w (d_of w v) -> Clear v w = Ok (tt, w') -> held w' v = held w v.
  Proof.
    intros Hwf. unfold Clear, bind, get_d. rewrite reslice_eq by lia. intros [= <-].
    rewrite !held_win. cbn. rewrite fn_lookup_insert. cbn. unfold win. cbn. by rewrite Nat.add_0_r, Nat.sub_0_r.
  Qed.

  Lemma Replace_in w s i j vs s' w' : wf w s -> s_Replace zero growth s i j vs w = Ok (s', w') ->
    (exists n vs', s' = mk_slice (s_arr s) (s_off s) n (s_cap s) /\ n <= s_cap s /\ n = s_len s - Z.to_nat (j - i) + length vs /\
       w_vec w' = w_vec w /\ w_an w' = w_an w /\ (forall a, length (w_arr w' a) = length (w_arr w a)) /\
       win w' s = splice 0 vs' (win w s) /\ length vs' = s_len s `max` n /\ drop n vs' = replicate (s_len s - n) zero) \/
    (exists n k, s_cap s < n /\ n = s_len s - Z.to_nat (j - i) + length vs /\ s' = mk_slice (Some (w_an w)) 0 n (n + k) /\ w_vec w' = w_vec w /\ length (w_arr w' (w_an w)) = n + k /\ w_an w' = S (w_an w) /\
       drop n (w_arr w' (w_an w)) = replicate k zero).
  Proof.
    intros Hwf H. pose proof (wf_len_cap _ _ Hwf) as Hlc. pose proof (contents_length _ _ Hwf) as Hcl. unfold s_Replace in H.
    destruct (_ && _)%bool eqn:Hr in H; [|done].
    set (l' := take (Z.to_nat i) (contents w s) ++ vs ++ drop (Z.to_nat j) (contents w s)) in *.
    assert (length l' = s_len s - Z.to_nat (j - i) + length vs) as Hl'.
    { unfold l'. rewrite !app_length, take_length, drop_length. lia. }
    destruct (Nat.leb_spec (length l') (s_cap s)) as [Hc|Hc].
    - left. unfold bind in H. destruct (write_at_spec w s 0 (l' ++ replicate (s_len s - length l') zero) Hwf) as (w1&E1&A1&A2&A3&A4&A5&A6).
      { rewrite app_length, replicate_length. lia. }
      rewrite E1 in H. injection H as <- <-. eexists (length l'), _. split_and!; [done|lia|done|done|done|done|exact A6| |].
      + rewrite app_length, replicate_length. lia.
      + apply drop_app.
    - right. unfold alloc in H. injection H as <- <-.
      eexists (length l'), _. cbn. split; [done|]. split; [done|]. split_and!; [|done| |done|]; rewrite ?fn_lookup_insert, ?app_length, ?replicate_length; [done|done|].
      apply drop_app.
  Qed.

  Lemma Cut_behind w v i j r w' : wf w (d_of w v) -> (0 <= i <= j)%Z -> (j <= Z.of_nat (length (vseq w v)))%Z -> Cut zero growth v i j w = Ok (r, w') ->
    behind w' v = drop (length (vseq w v) - Z.to_nat (j - i)) (vseq w v) ++ behind w v.
  Proof.
    intros Hwf Hij Hj H. pose proof (wf_len_cap _ _ Hwf) as Hlc. pose proof (vseq_length w v Hwf) as Hl. rewrite Hl in Hj.
    rewrite <- drop_held by (done || lia). set (d := d_of w v) in *.
    unfold Cut in H. unfold bind at 1 in H. unfold Len, bind at 1, get_d at 1, ret at 1 in H. fold d in H.
    replace (_ || _ || _)%bool with false in H by lia. unfold bind at 1, get_d at 1 in H. fold d in H.
    unfold bind at 1 in H. rewrite reslice_eq in H by lia. unfold bind at 1 in H. rewrite reslice_eq in H by lia.
    unfold bind at 1 in H. unfold reslice_from in H. rewrite reslice_eq in H by lia. unfold bind at 1, read in H.
    match type of H with context [contents w ?b] => assert (length (contents w b) <= s_len d - Z.to_nat j) as Hlb end.
    { unfold contents. cbn. destruct (s_arr d); cbn; [|lia]. rewrite take_length. lia. }
    assert (Hlb' : length (contents w (mk_slice (s_arr d) (s_off d + Z.to_nat j) (Z.to_nat (Z.of_nat (s_len d) - j)) (s_cap d - Z.to_nat j))) = s_len d - Z.to_nat j).
    { unfold contents. cbn. unfold wf in Hwf. destruct (s_arr d); cbn; [|lia]. rewrite take_length, drop_length. lia. }
    set (lb := contents w _) in *. unfold bind at 1 in H. unfold go_append in H. cbn [s_len s_cap s_arr s_off] in H.
    destruct (Nat.leb_spec (Z.to_nat (i - 0) + length lb) (s_cap d - Z.to_nat 0)) as [Hc|Hc] in H; [|lia].
    unfold bind at 1 in H. rewrite write_at_shift in H.
    destruct (write_at _ _ _ _) as [[[] w1]| |] eqn:Ew in H; [|done..]. unfold ret at 1 in H. unfold bind in H.
    destruct (set_d _ _ _) as [[[] w2]| |] eqn:Es in H; [|done..]. injection H as _ <-.
    destruct (write_at_above w d _ _ w1 (s_len d - Z.to_nat (j - i)) Ew Hwf ltac:(lia) ltac:(lia)) as (A1&A2&A3&A4).
    rewrite (behind_set w w1 v _ (s_len d - Z.to_nat (j - i)) w2 Es Hwf A1 A2 A3 eq_refl ltac:(cbn; fold d; lia) ltac:(cbn; fold d; lia) ltac:(cbn; fold d; lia) ltac:(fold d; lia)).
    fold d. by rewrite A4, Hl.
  Qed.

  (** Replace: in place, what falls off the end is zeroed; otherwise the new array is zero behind. *)
  Lemma drop_splice0 vs l n : n <= length vs -> length vs <= length l -> drop n (splice 0 vs l) = drop n vs ++ drop (length vs) l.
  Proof. intros. unfold splice. rewrite take_0. cbn [app]. by rewrite drop_app_le by done. Qed.
  Lemma Replace_behind w v i j vs w' : wf w (d_of w v) -> Replace zero growth v i j vs w = Ok (tt, w') ->
    let n := length (vseq w v) - Z.to_nat (j - i) + length vs in
    (n <= length (held w v) /\ behind w' v = replicate (length (vseq w v) - n) zero ++ drop (n - length (vseq w v)) (behind w v)) \/
    (length (held w v) < n /\ exists k, behind w' v = replicate k zero).
  Proof.
    intros Hwf H n. pose proof (wf_len_cap _ _ Hwf) as Hlc. pose proof (vseq_length w v Hwf) as Hl.
    assert (length (held w v) = s_cap (d_of w v)) as Hh by (rewrite held_win; by apply win_length).
    unfold Replace, bind, get_d in H. set (d := d_of w v) in *.
    destruct (s_Replace zero growth d i j vs w) as [[s' w1]| |] eqn:Er; [|done..].
    destruct (Replace_in w d i j vs s' w1 Hwf Er) as [(m&vs'&->&Hm&Em&A1&A2&A3&A4&A5&A6)|(m&k&Hm&Em&->&A1&A2&A3&A4)].
    - left. unfold n. rewrite Hh, Hl. rewrite <- Em. split; [lia|].
      rewrite (behind_set w w1 v _ m w' H Hwf A1 A2 A3 eq_refl eq_refl eq_refl eq_refl ltac:(fold d; lia)). fold d.
      rewrite A4, drop_splice0 by (rewrite ?win_length by done; lia). rewrite A6. f_equal.
      rewrite A5. unfold behind. rewrite held_win. fold d. rewrite Hl, drop_drop. f_equal. lia.
    - right. unfold n. rewrite Hh, Hl. split; [lia|]. exists k. injection H as <-. unfold behind.
      rewrite vseq_length; cbn; rewrite fn_lookup_insert; cbn [v_d s_len].
      + rewrite held_win. cbn. rewrite fn_lookup_insert. unfold win. cbn. rewrite drop_0, take_ge by (rewrite A2; lia). exact A4.
      + unfold wf. cbn. rewrite A2, A3. lia.
  Qed.
  Lemma Compact_behind w v eq w' : wf w (d_of w v) -> CompactFunc zero v eq w = Ok (tt, w') ->
    behind w' v = replicate (length (vseq w v) - length (vseq w' v)) zero ++ behind w v.
  Proof.
    intros Hwf H. pose proof (wf_len_cap _ _ Hwf) as Hlc. pose proof (vseq_length w v Hwf) as Hl.
    unfold CompactFunc, bind, get_d in H. set (d := d_of w v) in *.
    destruct (s_Compact zero d eq w) as [[s' w1]| |] eqn:Ec; [|done..]. unfold s_Compact in Ec.
    destruct (contents w d) as [|x l] eqn:El.
    - injection Ec as <- <-. 
      pose proof (behind_set w w v _ (s_len d) w' H Hwf eq_refl eq_refl (fun _ => eq_refl) eq_refl eq_refl eq_refl eq_refl ltac:(fold d; lia)) as Hb.
      assert (vseq w v = []) as Hv by exact El. rewrite Hb, Hv. cbn. unfold behind. by rewrite Hv, <- Hl, Hv.
    - assert (S (length l) = s_len d) as Hsl by (rewrite <- Hl; unfold vseq; fold d; by rewrite El).
      destruct (compact eq x l) as [r| |] eqn:Er; [|done..].
      assert (length r <= length l) as Hr.
      { clear -Er. revert x r Er. induction l as [|y l IH]; intros x r; cbn; [intros [= <-]; cbn; lia|].
        destruct (eq y x) as [b| |]; [|done..]. cbn. destruct (compact eq y l) as [r'| |] eqn:E2; [|done..]. cbn.
        specialize (IH y r' E2). intros [= <-]. destruct b; cbn; lia. }
      unfold bind in Ec. destruct (write_at_spec w d 0 ((x :: r) ++ replicate (s_len d - S (length r)) zero) Hwf) as (w2&E1&A1&A2&A3&A4&A5&A6).
      { rewrite app_length, replicate_length. cbn. lia. }
      rewrite E1 in Ec. injection Ec as <- <-.
      rewrite (behind_set w w2 v _ (S (length r)) w' H Hwf A2 A1 A5 eq_refl eq_refl eq_refl eq_refl ltac:(fold d; lia)). fold d.
      assert (length (vseq w' v) = S (length r)) as ->.
      { injection H as <-. rewrite vseq_length; cbn; rewrite fn_lookup_insert; [done|].
        unfold wf in *. cbn. destruct (s_arr d); [rewrite A5, A1|]; lia. }
      rewrite A6, drop_splice0 by (rewrite ?win_length, ?app_length, ?replicate_length by done; cbn; lia).
      rewrite Hl, app_length, replicate_length. cbn [length]. replace (S (length r) + (s_len d - S (length r))) with (s_len d) by lia.
      f_equal; [apply (drop_app (x :: r))|]. unfold behind. by rewrite Hl, held_win.
  Qed.
End held.
