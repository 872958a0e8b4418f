(** Proofs about capacities. *)
From Coq Require Import ZifyBool ZifyNat.
From Verif Require Import Base VecModel VecSpec VecProofs VecSteps VecHistory VecCapSpec.

Section cap.
  Context {T : Type} (zero : T) (growth : nat -> nat -> nat -> nat).
  Context (auto_less auto_equal : option (T -> T -> bool)).
  Context (srt srt_stable : (T -> T -> Z) -> list T -> list T).
  Notation W := (vworld T).
  Notation exec := (v_exec zero growth auto_equal srt srt_stable).
  Notation d_of w v := (v_d (w_vec w v)).
  Implicit Types (w : W) (s : slice) (vs l : list T) (v u : nat).

  Lemma bind_inv {A B} (m : M W A) (k : A -> M W B) w r w' : bind m k w = Ok (r, w') ->
    exists a w1, m w = Ok (a, w1) /\ k a w1 = Ok (r, w').
  Proof. unfold bind. destruct (m w) as [[a w1]| |]; [|done..]. eauto. Qed.
  Lemma write_inv s i vs w r w' : write_at s i vs w = Ok (r, w') -> w_an w' = w_an w /\ w_vec w' = w_vec w.
  Proof. unfold write_at. destruct (s_arr s); [|destruct vs; [|done]]; intros [= _ <-]; done. Qed.
  Lemma reslice_inv s i j w s' w' : reslice s i j w = Ok (s', w') ->
    w' = w /\ (0 <= i <= j)%Z /\ (j <= Z.of_nat (s_cap s))%Z /\
    s' = mk_slice (s_arr s) (s_off s + Z.to_nat i) (Z.to_nat (j - i)) (s_cap s - Z.to_nat i).
  Proof. unfold reslice. destruct (_ && _ && _) eqn:E; [|done]. intros [= <- <-]. split; [done|]. split; [lia|]. split; [lia|done]. Qed.
  Lemma set_idx_inv s i (x : T) w r w' : set_idx s i x w = Ok (r, w') -> w_an w' = w_an w /\ w_vec w' = w_vec w.
  Proof. unfold set_idx. destruct (_ && _); [|done]. apply write_inv. Qed.
  Lemma set_d_inv v s w r w' : set_d v s w = Ok (r, w') -> w_an w' = w_an w /\ d_of w' v = s /\ forall u, u <> v -> w_vec w' u = w_vec w u.
  Proof.
    unfold set_d. intros [= _ <-]. cbn. rewrite fn_lookup_insert. split; [done|]. split; [done|].
    intros u Hu. by rewrite fn_lookup_insert_ne.
  Qed.
  Lemma get_d_inv v w s w' : get_d v w = Ok (s, w') -> w' = w /\ s = d_of w v.
  Proof. unfold get_d. intros [= <- <-]. done. Qed.
  Lemma idx_inv s i w (x : T) w' : idx s i w = Ok (x, w') -> w' = w.
  Proof. unfold idx. destruct (getZ _ _); [|done]. by intros [= _ <-]. Qed.
  Lemma read_inv s w l w' : read s w = Ok (l, w') -> w' = w /\ l = contents w s.
  Proof. unfold read. by intros [= <- <-]. Qed.
  Lemma append_fits s vs w s' w' : s_len s + length vs <= s_cap s -> go_append zero growth s vs w = Ok (s', w') ->
    w_vec w' = w_vec w /\ w_an w' = w_an w /\
    s' = mk_slice (s_arr s) (s_off s) (s_len s + length vs) (s_cap s).
  Proof.
    unfold go_append. intros H. replace (_ <=? _) with true by lia. intros E. apply bind_inv in E as ([]&w1&E1&E2).
    injection E2 as <- <-. apply write_inv in E1 as [E1 E2]. done.
  Qed.
  Lemma append_new s vs w s' w' : s_cap s < s_len s + length vs -> wf w s -> go_append zero growth s vs w = Ok (s', w') ->
    w_vec w' = w_vec w /\ w_an w' = S (w_an w) /\
    s_arr s' = Some (w_an w) /\ s_len s' = s_len s + length vs /\ s_len s + length vs <= s_cap s'.
  Proof.
    unfold go_append. intros H Hw. replace (_ <=? _) with false by lia. unfold alloc. intros [= <- <-]. cbn.
    split; [done|]. split; [done|]. split; [done|]. split; [done|].
    rewrite !app_length, replicate_length, (contents_length w s Hw). lia.
  Qed.
  Lemma replace_inv s i j vs w s' w' : wf w s -> s_Replace zero growth s i j vs w = Ok (s', w') ->
    w_vec w' = w_vec w /\
    if s_len s' <=? s_cap s
    then w_an w' = w_an w /\ s_arr s' = s_arr s /\ s_off s' = s_off s /\ s_cap s' = s_cap s
    else w_an w' = S (w_an w) /\ s_arr s' = Some (w_an w) /\ s_len s' <= s_cap s'.
  Proof.
    intros Hw. unfold s_Replace. destruct (_ && _); [|done].
    set (l' := _ ++ vs ++ _). destruct (Nat.leb_spec (length l') (s_cap s)) as [H|H].
    - intros E. apply bind_inv in E as ([]&w1&E1&E2). injection E2 as <- <-. apply write_inv in E1 as [E1 E2]. cbn.
      replace (_ <=? _) with true by lia. done.
    - unfold alloc. intros [= <- <-]. cbn. replace (_ <=? _) with false by lia. split; [done|]. split; [done|]. split; [done|].
      rewrite app_length, replicate_length. lia.
  Qed.
  Lemma grow_inv s n w s' w' : wf w s -> s_Grow zero growth s n w = Ok (s', w') ->
    w_vec w' = w_vec w /\ s_len s' = s_len s /\
    if s_len s + Z.to_nat n <=? s_cap s
    then w' = w /\ s' = s
    else w_an w' = S (w_an w) /\ s_arr s' = Some (w_an w) /\ s_len s + Z.to_nat n <= s_cap s'.
  Proof.
    intros Hw. pose proof (wf_len_cap _ _ Hw) as Hlc. unfold s_Grow. destruct (n <? 0)%Z; [done|].
    destruct (Nat.ltb_spec 0 (Z.to_nat n - (s_cap s - s_len s))) as [H|H].
    - intros E. apply bind_inv in E as (f&w1&E1&E). apply bind_inv in E as (g&w2&E2&E3).
      apply reslice_inv in E1 as (->&_&_&->). apply reslice_inv in E3 as (->&_&_&->).
      apply append_new in E2 as (E2&E4&E5&E6&E7).
      + cbn in E6, E7 |- *. rewrite replicate_length in *. replace (_ <=? _) with false by lia.
        split; [done|]. split; [lia|]. split; [done|]. split; [done|]. lia.
      + cbn. rewrite replicate_length. lia.
      + destruct (reslice_ok w s 0 (Z.of_nat (s_cap s)) Hw ltac:(lia) ltac:(lia)) as (f&E1&Hf&_).
        unfold reslice in E1. destruct (_ && _ && _); [|done]. injection E1 as <-. done.
    - intros [= <- <-]. replace (_ <=? _) with true by lia. done.
  Qed.

  (** The length, wherever it is asked for *)
  Lemma len_seq w v : inv w -> v < w_vn w -> length (vseq w v) = s_len (d_of w v).
  Proof. intros Hi Hv. apply contents_length. by apply Hi. Qed.

  (** Before and after a call on [v], in terms of the headers. *)
  Definition room w v w' (need : nat) : Prop :=
    (need <= cap_of w v -> w_an w' = w_an w /\ stays w v w') /\
    (cap_of w v < need -> w_an w' = S (w_an w) /\ moves w v w' /\ need <= cap_of w' v).
  Lemma room_stays w v w' n : n <= cap_of w v -> w_an w' = w_an w -> stays w v w' -> room w v w' n.
  Proof. intros. split; [done|lia]. Qed.
  Lemma stays_refl w v : stays w v w.
  Proof. done. Qed.
  Lemma stays_vec w v w' : w_vec w' = w_vec w -> stays w v w'.
  Proof. unfold stays, cap_of. intros ->. done. Qed.

  Lemma Push_room w v vs r w' : inv w -> v < w_vn w -> Push zero growth v vs w = Ok (r, w') ->
    room w v w' (s_len (d_of w' v)).
  Proof.
    intros Hi Hv. pose proof (i_wf _ Hi v Hv) as Hd. pose proof (wf_len_cap _ _ Hd) as Hlc. unfold Push. intros E.
    apply bind_inv in E as (n&w1&E1&E). rewrite Len_eq in E1. injection E1 as <- <-.
    apply bind_inv in E as (c&w1&E1&E). unfold Cap, bind, get_d, ret in E1. injection E1 as <- <-.
    apply bind_inv in E as ([]&w1&E1&E). apply bind_inv in E as (d&w2&E2&E). apply get_d_inv in E2 as [-> ->].
    apply bind_inv in E as (d'&w2&E2&E). apply set_d_inv in E as (A1&A2&_).
    destruct (Z.gtb_spec (Z.of_nat (s_len (d_of w v)) + Z.of_nat (length vs)) (Z.of_nat (s_cap (d_of w v)))) as [H|H].
    - unfold Grow in E1. apply bind_inv in E1 as (d&w3&E3&E1). apply get_d_inv in E3 as [-> ->].
      apply bind_inv in E1 as (d1&w3&E3&E1). apply set_d_inv in E1 as (B1&B2&_). apply grow_inv in E3 as (B3&B4&B5); [|done].
      rewrite Nat2Z.id in B5. replace (_ <=? _) with false in B5 by lia. destruct B5 as (B5&B6&B7).
      apply append_fits in E2 as (C1&C2&C3); [|rewrite B2, B4; lia].
      rewrite A2, C3. cbn [s_len]. rewrite B2, B4. split; [unfold cap_of; lia|]. intros _.
      split; [lia|]. split; [|unfold cap_of; rewrite A2, C3; cbn; rewrite B2; lia].
      exists (w_an w). rewrite A2, C3. cbn. rewrite B2, B6. done.
    - injection E1 as <-. apply append_fits in E2 as (C1&C2&C3); [|lia]. rewrite A2, C3. cbn [s_len].
      apply room_stays; [unfold cap_of; lia|lia|]. unfold stays, cap_of. rewrite A2, C3. done.
  Qed.
  Lemma Replace_room w v i j vs r w' : inv w -> v < w_vn w -> Replace zero growth v i j vs w = Ok (r, w') ->
    room w v w' (s_len (d_of w' v)).
  Proof.
    intros Hi Hv. pose proof (i_wf _ Hi v Hv) as Hd. unfold Replace. intros E.
    apply bind_inv in E as (d&w1&E1&E). apply get_d_inv in E1 as [-> ->]. apply bind_inv in E as (d'&w2&E2&E).
    apply set_d_inv in E as (A1&A2&_). apply replace_inv in E2 as (B1&B2); [|done]. rewrite A2. unfold room, stays, moves, cap_of. rewrite A2.
    destruct (Nat.leb_spec (s_len d') (s_cap (d_of w v))).
    - split; [|lia]. intros _. split; [lia|]. tauto.
    - split; [lia|]. intros _. split; [lia|]. split; [|lia]. exists (w_an w). split; [tauto|done].
  Qed.
  (** A call that writes in place and keeps or shortens the header. *)
  Definition quiet w v w' : Prop := w_an w' = w_an w /\ stays w v w'.
  Lemma quiet_refl w v : quiet w v w.
  Proof. done. Qed.
  Lemma quiet_write w v s i vs r w' : write_at s i vs w = Ok (r, w') -> quiet w v w'.
  Proof. intros E. apply write_inv in E as [E1 E2]. split; [done|by apply stays_vec]. Qed.
  Lemma quiet_trans w v w1 w2 : quiet w v w1 -> quiet w1 v w2 -> quiet w v w2.
  Proof. unfold quiet, stays. intros (?&?&?&?) (?&?&?&?). split; [lia|]. split; [congruence|]. split; [congruence|lia]. Qed.
  Lemma quiet_set w v n r w' : set_d v (mk_slice (s_arr (d_of w v)) (s_off (d_of w v)) n (s_cap (d_of w v))) w = Ok (r, w') -> quiet w v w'.
  Proof. intros E. apply set_d_inv in E as (A1&A2&_). split; [done|]. unfold stays, cap_of. rewrite A2. done. Qed.

  Lemma Remove_quiet w v i r w' : Remove zero v i w = Ok (r, w') -> quiet w v w'.
  Proof.
    unfold Remove. intros E. apply bind_inv in E as (n&w1&E1&E). rewrite Len_eq in E1. injection E1 as <- <-.
    destruct (_ || _); [injection E as _ <-; apply quiet_refl|].
    apply bind_inv in E as (d&w1&E1&E). apply get_d_inv in E1 as [-> ->].
    apply bind_inv in E as (e&w1&E1&E). apply idx_inv in E1 as ->.
    apply bind_inv in E as ([]&w1&E1&E). injection E as _ <-.
    destruct (_ =? _)%Z.
    - apply bind_inv in E1 as (d'&w2&E1&E2). apply reslice_inv in E1 as (->&_&_&->). cbn in E2.
      rewrite Nat.add_0_r, Nat.sub_0_r in E2. by eapply quiet_set.
    - apply bind_inv in E1 as (dst&w2&E1&E2). apply reslice_inv in E1 as (->&_&_&->).
      apply bind_inv in E2 as (src&w2&E1&E2). apply reslice_inv in E1 as (->&_&_&->).
      apply bind_inv in E2 as ([]&w2&E1&E2). unfold go_copy in E1. apply bind_inv in E1 as (l&w3&E1&E3).
      apply read_inv in E1 as [-> _]. pose proof (write_inv _ _ _ _ _ _ E3) as [_ Ev]. apply (quiet_write _ v) in E3.
      eapply quiet_trans; [exact E3|].
      apply bind_inv in E2 as (d'&w3&E1&E2). apply reslice_inv in E1 as (->&_&_&->). cbn in E2.
      rewrite Nat.add_0_r, Nat.sub_0_r, <- Ev in E2. by eapply quiet_set.
  Qed.
  Lemma Cut_quiet w v i j r w' : inv w -> v < w_vn w -> Cut zero growth v i j w = Ok (r, w') -> quiet w v w'.
  Proof.
    intros Hi Hv. pose proof (wf_len_cap _ _ (i_wf _ Hi v Hv)) as Hlc.
    unfold Cut. intros E. apply bind_inv in E as (n&w1&E1&E). rewrite Len_eq in E1. injection E1 as <- <-.
    destruct (_ || _ || _) eqn:Eb; [injection E as _ <-; apply quiet_refl|].
    apply bind_inv in E as (d&w1&E1&E). apply get_d_inv in E1 as [-> ->].
    apply bind_inv in E as (val&w1&E1&E). apply reslice_inv in E1 as (->&_&_&_).
    apply bind_inv in E as (a&w1&E1&E). apply reslice_inv in E1 as (->&_&_&->).
    apply bind_inv in E as (b&w1&E1&E). apply reslice_inv in E1 as (->&_&_&->).
    apply bind_inv in E as (lb&w1&E1&E). apply read_inv in E1 as [-> ->].
    apply bind_inv in E as (d'&w1&E1&E). apply bind_inv in E as ([]&w2&E2&E). injection E as _ <-.
    apply append_fits in E1 as (A1&A2&->).
    - cbn in E2. rewrite Nat.add_0_r, Nat.sub_0_r, <- A1 in E2. apply quiet_set in E2.
      eapply quiet_trans; [|exact E2]. split; [done|by apply stays_vec].
    - cbn. unfold contents. cbn. destruct (s_arr _); [|cbn; lia]. rewrite take_length. lia.
  Qed.
  Lemma Compact_quiet w v eq r w' : CompactFunc zero v eq w = Ok (r, w') -> quiet w v w'.
  Proof.
    unfold CompactFunc. intros E. apply bind_inv in E as (d&w1&E1&E). apply get_d_inv in E1 as [-> ->].
    apply bind_inv in E as (d'&w1&E1&E). unfold s_Compact in E1. destruct (contents w (d_of w v)) as [|x l].
    - injection E1 as <- <-. eapply (quiet_set w v (s_len (d_of w v))). destruct (d_of w v). exact E.
    - destruct (compact eq x l) as [l'| |]; [|done..]. apply bind_inv in E1 as ([]&w2&E1&E2). injection E2 as <- <-.
      pose proof (write_inv _ _ _ _ _ _ E1) as [_ Ev]. apply (quiet_write _ v) in E1. eapply quiet_trans; [exact E1|].
      rewrite <- Ev in E. by eapply quiet_set.
  Qed.

  Lemma quiet_vec w v w' : w_an w' = w_an w -> d_of w' v = d_of w v -> quiet w v w'.
  Proof. unfold quiet, stays, cap_of. intros ? ->. done. Qed.
  Lemma Swap_quiet w v i j r w' : Swap v i j w = Ok (r, w') -> quiet w v w'.
  Proof.
    unfold Swap. intros E. apply bind_inv in E as (n&w1&E1&E). rewrite Len_eq in E1. injection E1 as <- <-.
    destruct (_ || _); [injection E as _ <-; apply quiet_refl|].
    apply bind_inv in E as (d&w1&E1&E). apply get_d_inv in E1 as [-> ->].
    apply bind_inv in E as (x&w1&E1&E). apply idx_inv in E1 as ->.
    apply bind_inv in E as (y&w1&E1&E). apply idx_inv in E1 as ->.
    apply bind_inv in E as ([]&w1&E1&E). apply set_idx_inv in E1 as [A1 A2]. apply set_idx_inv in E as [B1 B2].
    apply quiet_vec; [lia|by rewrite B2, A2].
  Qed.
  Lemma Grow_room w v n r w' : inv w -> v < w_vn w -> Grow zero growth v n w = Ok (r, w') ->
    room w v w' (s_len (d_of w v) + Z.to_nat n).
  Proof.
    intros Hi Hv. pose proof (i_wf _ Hi v Hv) as Hd. unfold Grow. intros E.
    apply bind_inv in E as (d&w1&E1&E). apply get_d_inv in E1 as [-> ->]. apply bind_inv in E as (d'&w1&E1&E).
    apply set_d_inv in E as (A1&A2&_). apply grow_inv in E1 as (B1&B2&B3); [|done]. unfold room, moves, stays, cap_of. rewrite A2.
    destruct (Nat.leb_spec (s_len (d_of w v) + Z.to_nat n) (s_cap (d_of w v))).
    - destruct B3 as [-> ->]. split; [done|lia].
    - split; [lia|]. intros _. split; [lia|]. split; [|lia]. exists (w_an w). split; [tauto|done].
  Qed.

  (** A vector that the program gets to know only now does not disturb the old ones. *)
  Lemma Push_other w u vs r w' v : u <> v -> Push zero growth u vs w = Ok (r, w') -> w_vec w' v = w_vec w v.
  Proof.
    intros Hne. unfold Push. intros E.
    apply bind_inv in E as (n&w1&E1&E). rewrite Len_eq in E1. injection E1 as <- <-.
    apply bind_inv in E as (c&w1&E1&E). unfold Cap, bind, get_d, ret in E1. injection E1 as <- <-.
    apply bind_inv in E as ([]&w1&E1&E). apply bind_inv in E as (d&w2&E2&E). apply get_d_inv in E2 as [-> ->].
    apply bind_inv in E as (d'&w2&E2&E). apply set_d_inv in E as (A1&A2&A3). rewrite A3 by done.
    assert (HA : forall s vs w s' w', go_append zero growth s vs w = Ok (s', w') -> w_vec w' = w_vec w).
    { intros s vs' w3 s' w3'. unfold go_append. destruct (_ <=? _).
      - intros E. apply bind_inv in E as ([]&w4&E&E'). injection E' as _ <-. by apply write_inv in E as [_ ?].
      - unfold alloc. by intros [= _ <-]. }
    rewrite (HA _ _ _ _ _ E2). destruct (_ >? _)%Z; [|by injection E1 as <-].
    unfold Grow in E1. apply bind_inv in E1 as (d&w3&E3&E1). apply get_d_inv in E3 as [-> ->].
    apply bind_inv in E1 as (d1&w3&E3&E1). apply set_d_inv in E1 as (_&_&B). rewrite B by done.
    unfold s_Grow in E3. destruct (_ <? _)%Z; [done|]. destruct (_ <? _); [|by injection E3 as _ <-].
    apply bind_inv in E3 as (f&w4&E4&E3). apply reslice_inv in E4 as (->&_). apply bind_inv in E3 as (g&w4&E4&E3).
    apply reslice_inv in E3 as (->&_). by rewrite (HA _ _ _ _ _ E4).
  Qed.
  Lemma New_inv (less equal : option (cmpfn T)) w u w' : New less equal w = Ok (u, w') ->
    u = w_vn w /\ w_an w' = w_an w /\ w_vn w' = S (w_vn w) /\ forall v, v <> u -> w_vec w' v = w_vec w v.
  Proof.
    unfold New. intros [= <- <-]. cbn. split; [done|]. split; [done|]. split; [done|]. intros v Hv. by rewrite fn_lookup_insert_ne.
  Qed.
  Lemma copying_stays w v c r w' : inv w -> v < w_vn w -> copying c -> exec v c w = Ok (r, w') -> stays w v w'.
  Proof.
    intros Hi Hv Hc E. destruct c; try done; cbn [v_exec] in E.
    - apply bind_inv in E as (u&w1&E1&E). injection E as _ <-. unfold SplitOff in E1.
      apply bind_inv in E1 as (u'&w2&E2&E). pose proof E2 as E2'. apply New_inv in E2 as (->&A1&A2&A3).
      apply bind_inv in E as (n&w3&E3&E). rewrite Len_eq in E3. injection E3 as <- <-.
      apply bind_inv in E as (s&w3&E3&E). apply bind_inv in E as (vs&w4&E4&E). apply read_inv in E4 as [-> ->].
      apply bind_inv in E as ([]&w4&E4&E). injection E as _ <-.
      assert (inv w2) as I2.
      { destruct (New_ok w (Some (CMethod v)) (Some (CMethod v)) Hi) as (w2'&E5&I2&_); [by intros ? [= <-]..|].
        rewrite E5 in E2'. injection E2' as <-. done. }
      apply Cut_quiet in E3 as [_ Hs]; [|done|lia]. unfold stays, cap_of in *.
      assert (w_vn w <> v) as Hne by lia. rewrite (Push_other _ _ _ _ _ v Hne E4). by rewrite (A3 v) in Hs by lia.
    - apply bind_inv in E as (u&w1&E1&E). injection E as _ <-. unfold Clone in E1.
      apply bind_inv in E1 as (u'&w2&E2&E). apply New_inv in E2 as (->&A1&A2&A3).
      apply bind_inv in E as (d&w3&E3&E). apply get_d_inv in E3 as [-> ->].
      apply bind_inv in E as (vs&w4&E4&E). apply read_inv in E4 as [-> ->].
      apply bind_inv in E as ([]&w4&E4&E). injection E as _ <-. unfold stays, cap_of.
      assert (w_vn w <> v) as Hne by lia. rewrite (Push_other _ _ _ _ _ v Hne E4). by rewrite (A3 v) by lia.
    - apply bind_inv in E as (s&w1&E1&E). injection E as _ <-. unfold CloneToSlice in E1.
      apply bind_inv in E1 as (d&w2&E2&E). apply get_d_inv in E2 as [-> ->]. unfold s_Clone in E.
      destruct (s_arr _); [|by injection E as _ <-]. unfold alloc in E. injection E as _ <-. done.
  Qed.

  (** Every call but the copying ones and Clip. *)
  Lemma call_room w v c r w' : inv w -> inv w' -> v < w_vn w -> v < w_vn w' -> ~ copying c -> c <> VClip -> exec v c w = Ok (r, w') ->
    room w v w' (asks c (s_len (d_of w v)) (s_len (d_of w' v))).
  Proof.
    intros Hi Hi' Hv Hv' Hc Hcl E. pose proof (wf_len_cap _ _ (i_wf _ Hi' v Hv')) as Hlc.
    assert (HQ : quiet w v w' -> room w v w' (s_len (d_of w' v))).
    { intros [H1 H2]. apply room_stays; [|done|done]. destruct H2 as (_&_&H2). unfold cap_of in *. lia. }
    destruct c; cbn [asks v_exec] in E |- *; try done.
    all: apply bind_inv in E as (a&w1&E1&E).
    all: try (injection E as _ <-).
    - apply HQ. rewrite Len_eq in E1. injection E1 as _ <-. apply quiet_refl.
    - by eapply Push_room.
    - apply HQ. unfold Pop in E1. apply bind_inv in E1 as (n&w2&E2&E1). rewrite Len_eq in E2. injection E2 as <- <-.
      by eapply Remove_quiet.
    - apply HQ. by eapply Remove_quiet.
    - apply HQ. unfold Get in E1. apply bind_inv in E1 as (n&w2&E2&E1). rewrite Len_eq in E2. injection E2 as <- <-.
      destruct (_ || _); [injection E1 as _ <-; apply quiet_refl|].
      apply bind_inv in E1 as (d&w2&E2&E1). apply get_d_inv in E2 as [-> ->].
      apply bind_inv in E1 as (e&w2&E2&E1). apply idx_inv in E2 as ->. injection E1 as _ <-. apply quiet_refl.
    - apply HQ. unfold Set_ in E1. apply bind_inv in E1 as (n&w2&E2&E1). rewrite Len_eq in E2. injection E2 as <- <-.
      destruct (_ || _); [injection E1 as _ <-; apply quiet_refl|].
      apply bind_inv in E1 as (d&w2&E2&E1). apply get_d_inv in E2 as [-> ->].
      apply bind_inv in E1 as (e&w2&E2&E1). injection E1 as _ <-. apply set_idx_inv in E2 as [A1 A2].
      apply quiet_vec; [done|by rewrite A2].
    - apply HQ. unfold Clear in E1. apply bind_inv in E1 as (d&w2&E2&E1). apply get_d_inv in E2 as [-> ->].
      apply bind_inv in E1 as (d'&w2&E2&E1). apply reslice_inv in E2 as (->&_&_&->). cbn in E1.
      rewrite Nat.add_0_r, Nat.sub_0_r in E1. by eapply quiet_set.
    - apply HQ. unfold First in E1. apply bind_inv in E1 as (n&w2&E2&E1). rewrite Len_eq in E2. injection E2 as <- <-.
      destruct (_ =? _)%Z; [injection E1 as _ <-; apply quiet_refl|].
      apply bind_inv in E1 as (d&w2&E2&E1). apply get_d_inv in E2 as [-> ->].
      apply bind_inv in E1 as (e&w2&E2&E1). apply idx_inv in E2 as ->. injection E1 as _ <-. apply quiet_refl.
    - apply HQ. unfold Last in E1. apply bind_inv in E1 as (n&w2&E2&E1). rewrite Len_eq in E2. injection E2 as <- <-.
      destruct (_ =? _)%Z; [injection E1 as _ <-; apply quiet_refl|].
      apply bind_inv in E1 as (d&w2&E2&E1). apply get_d_inv in E2 as [-> ->].
      apply bind_inv in E1 as (e&w2&E2&E1). apply idx_inv in E2 as ->. injection E1 as _ <-. apply quiet_refl.
    - apply HQ. by eapply Swap_quiet.
    - by apply (Replace_room w v i i vs a).
    - by apply (Replace_room w v i j [] a).
    - by eapply Replace_room.
    - apply HQ. unfold Reverse in E1. apply bind_inv in E1 as (d&w2&E2&E1). apply get_d_inv in E2 as [-> ->].
      unfold s_Reverse in E1. apply bind_inv in E1 as (l&w2&E2&E1). apply read_inv in E2 as [-> ->]. by eapply quiet_write.
    - apply HQ. by eapply Cut_quiet.
    - apply HQ. apply get_d_inv in E1 as [-> ->]. apply quiet_refl.
    - apply HQ. unfold SliceCut in E1. apply bind_inv in E1 as (n&w2&E2&E1). rewrite Len_eq in E2. injection E2 as <- <-.
      destruct (_ || _ || _); [injection E1 as _ <-; apply quiet_refl|].
      apply bind_inv in E1 as (d&w2&E2&E1). apply get_d_inv in E2 as [-> ->]. apply reslice_inv in E1 as (->&_). apply quiet_refl.
    - apply HQ. by eapply Compact_quiet.
    - apply HQ. unfold ConpareAndRemove in E1. apply bind_inv in E1 as (n&w2&E2&E1). rewrite Len_eq in E2. injection E2 as <- <-.
      destruct (_ || _); [injection E1 as _ <-; apply quiet_refl|].
      apply bind_inv in E1 as (d&w2&E2&E1). apply get_d_inv in E2 as [-> ->].
      apply bind_inv in E1 as (y&w2&E2&E1). apply idx_inv in E2 as ->.
      apply bind_inv in E1 as (b&w2&E2&E1). unfold with_res in E2. destruct (CmpEqual _ _ _ _ _) as [b'| |]; [|done..]. injection E2 as <- <-.
      destruct b'; [by eapply Remove_quiet|]. injection E1 as _ <-. apply quiet_refl.
    - by eapply Grow_room.
    - apply HQ. unfold SetCmpLess in E1. injection E1 as _ <-. apply quiet_vec; [done|]. cbn. by rewrite fn_lookup_insert.
    - apply HQ. unfold SetCmpEqual in E1. injection E1 as _ <-. apply quiet_vec; [done|]. cbn. by rewrite fn_lookup_insert.
    - apply HQ. unfold SortFunc in E1. apply bind_inv in E1 as (d&w2&E2&E1). apply get_d_inv in E2 as [-> ->].
      apply bind_inv in E1 as (l&w2&E2&E1). apply read_inv in E2 as [-> ->]. by eapply quiet_write.
    - apply HQ. unfold SortStableFunc in E1. apply bind_inv in E1 as (d&w2&E2&E1). apply get_d_inv in E2 as [-> ->].
      apply bind_inv in E1 as (l&w2&E2&E1). apply read_inv in E2 as [-> ->]. by eapply quiet_write.
  Qed.
End cap.
