From Coq Require Import ZifyBool ZifyNat.
From Verif Require Import Base VecModel VecSpec.

Section prims.
  Context {T : Type}.
  Notation W := (vworld T).
  Implicit Types (w : W) (s : slice) (vs l : list T).

  (** The whole window of a slice, up to its capacity. *)
  Definition win w s : list T := match s_arr s with None => [] | Some a => take (s_cap s) (drop (s_off s) (w_arr w a)) end.
  Definition wf w s : Prop :=
    match s_arr s with
    | None => s_len s = 0 /\ s_cap s = 0
    | Some a => a < w_an w /\ s_off s + s_cap s <= length (w_arr w a) /\ s_len s <= s_cap s
    end.
  Lemma wf_len_cap w s : wf w s -> s_len s <= s_cap s.
  Proof. unfold wf. destruct (s_arr s); lia. Qed.
  Lemma win_length w s : wf w s -> length (win w s) = s_cap s.
  Proof. unfold wf, win. destruct (s_arr s); cbn; [|lia]. intros. rewrite take_length, drop_length. lia. Qed.
  Lemma contents_win w s : s_len s <= s_cap s -> contents w s = take (s_len s) (win w s).
  Proof. intros H. unfold contents, win. destruct (s_arr s); [|by rewrite take_nil]. rewrite take_take. f_equal. lia. Qed.
  Lemma contents_length w s : wf w s -> length (contents w s) = s_len s.
  Proof. intros H. pose proof (wf_len_cap _ _ H). rewrite contents_win, take_length, win_length by done. lia. Qed.
  Lemma splice_length k vs l : k + length vs <= length l -> length (splice k vs l) = length l.
  Proof. intros. unfold splice. rewrite !app_length, take_length, drop_length. lia. Qed.

  Lemma lookup_splice k vs l j : k <= length l ->
    splice k vs l !! j = if decide (j < k) then l !! j else if decide (j < k + length vs) then vs !! (j - k) else l !! j.
  Proof.
    intros Hk. unfold splice. case_decide.
    { rewrite lookup_app_l by (rewrite take_length; lia). by rewrite lookup_take. }
    rewrite lookup_app_r by (rewrite take_length; lia). rewrite take_length. replace (k `min` length l) with k by lia.
    case_decide.
    - by rewrite lookup_app_l by lia.
    - rewrite lookup_app_r by lia. rewrite lookup_drop. f_equal. lia.
  Qed.

  (** What a step on slice [s] may do: change its array, or make new ones. *)
  Record sl_step w s w' s' : Prop := {
    ss_an : w_an w <= w_an w';
    ss_vec : w_vec w' = w_vec w;
    ss_vn : w_vn w' = w_vn w;
    ss_arr : forall a, a < w_an w -> s_arr s <> Some a -> w_arr w' a = w_arr w a;
    ss_len : forall a, a < w_an w -> length (w_arr w' a) = length (w_arr w a);
    ss_wf : wf w' s';
    ss_own : s_arr s' = s_arr s \/ exists a, s_arr s' = Some a /\ w_an w <= a < w_an w' }.

  Lemma sl_refl w s : wf w s -> sl_step w s w s.
  Proof. intros. constructor; auto. Qed.
  Lemma sl_trans w s w1 s1 w2 s2 : sl_step w s w1 s1 -> sl_step w1 s1 w2 s2 -> sl_step w s w2 s2.
  Proof.
    intros [A1 A2 A3 A4 A5 A6 A7] [B1 B2 B3 B4 B5 B6 B7]. constructor; try lia; try congruence; auto.
    - intros a Ha Hs. rewrite B4; [by apply A4|lia|]. destruct A7 as [->|(b&->&?)]; [done|]. intros [= ->]. lia.
    - intros a Ha. rewrite B5 by lia. by apply A5.
    - destruct B7 as [E|(b&E&?)].
      + rewrite E. destruct A7 as [?|(b&?&?)]; [auto|right; exists b; split; [done|lia]].
      + right. exists b. split; [done|lia].
  Qed.
  (** A step on another header of the same array. *)
  Lemma sl_same w s s0 w' s' : s_arr s0 = s_arr s -> sl_step w s0 w' s' -> sl_step w s w' s'.
  Proof. intros E [A1 A2 A3 A4 A5 A6 A7]. rewrite E in *. constructor; auto. Qed.
  Lemma wf_step w w' s0 : (forall a, a < w_an w -> length (w_arr w' a) = length (w_arr w a)) -> w_an w <= w_an w' ->
    wf w s0 -> wf w' s0.
  Proof. unfold wf. intros H1 H2. destruct (s_arr s0) as [a|]; [|done]. intros (?&?&?). rewrite H1 by lia. lia. Qed.

  Lemma write_at_spec w s i vs : wf w s -> i + length vs <= s_cap s ->
    exists w', write_at s i vs w = Ok (tt, w') /\ w_an w' = w_an w /\ w_vec w' = w_vec w /\ w_vn w' = w_vn w /\
      (forall a, s_arr s <> Some a -> w_arr w' a = w_arr w a) /\
      (forall a, length (w_arr w' a) = length (w_arr w a)) /\
      win w' s = splice i vs (win w s).
  Proof.
    intros Hwf Hi. unfold write_at, win, wf in *. destruct (s_arr s) as [a|] eqn:E.
    - eexists. split; [reflexivity|]. cbn. split; [done|]. split; [done|]. split; [done|]. split; [|split].
      + intros b Hb. rewrite fn_lookup_insert_ne by congruence. done.
      + intros b. destruct (decide (a = b)) as [->|]; [|by rewrite fn_lookup_insert_ne].
        rewrite fn_lookup_insert. apply splice_length. lia.
      + rewrite fn_lookup_insert. unfold splice.
        set (L := w_arr w a) in *. apply list_eq. intros k.
        destruct (decide (k < s_cap s)) as [Hk|Hk].
        2: { rewrite !lookup_ge_None_2; [done| |]; rewrite ?app_length, ?take_length, ?drop_length, ?app_length, ?take_length, ?drop_length; lia. }
        rewrite lookup_take by done. rewrite lookup_drop.
        fold (splice (s_off s + i) vs L) (splice i vs (take (s_cap s) (drop (s_off s) L))).
        rewrite !lookup_splice by (rewrite ?take_length, ?drop_length; lia).
        rewrite lookup_take by done. rewrite lookup_drop.
        repeat case_decide; try lia; try done. f_equal. lia.
    - destruct vs; cbn in *; [|lia]. eexists. split; [reflexivity|]. split; [done|]. split; [done|]. split; [done|]. split; [done|]. split; [done|].
      unfold splice. by rewrite take_nil, drop_nil.
  Qed.
  (** Writing within the capacity and changing the length. *)
  Lemma write_slice w s i vs n : wf w s -> i + length vs <= s_cap s -> n <= s_cap s ->
    exists w', write_at s i vs w = Ok (tt, w') /\
      sl_step w s w' (mk_slice (s_arr s) (s_off s) n (s_cap s)) /\
      contents w' (mk_slice (s_arr s) (s_off s) n (s_cap s)) = take n (splice i vs (win w s)) /\
      win w' s = splice i vs (win w s) /\ w_an w' = w_an w.
  Proof.
    intros Hwf Hi Hn. destruct (write_at_spec w s i vs Hwf Hi) as (w'&E&A1&A2&A3&A4&A5&A6).
    exists w'. split; [done|]. split; [|split; [|done]].
    - constructor; cbn; auto; try lia.
      unfold wf in *. cbn. destruct (s_arr s) as [a|] eqn:Ea; [|lia]. rewrite A5, A1. lia.
    - rewrite contents_win by done. cbn. unfold win at 1. cbn. unfold win in A6 at 1. rewrite A6. done.
  Qed.
  Lemma alloc_spec w s l n : n <= length l -> exists w',
    alloc l n w = Ok (mk_slice (Some (w_an w)) 0 n (length l), w') /\
    sl_step w s w' (mk_slice (Some (w_an w)) 0 n (length l)) /\
    contents w' (mk_slice (Some (w_an w)) 0 n (length l)) = take n l /\
    (forall a, a < w_an w -> w_arr w' a = w_arr w a) /\ w_an w' = S (w_an w).
  Proof.
    intros Hn. eexists. split; [reflexivity|]. cbn. split; [|split; [|split]].
    - constructor; cbn; auto.
      + intros a Ha _. by rewrite fn_lookup_insert_ne by lia.
      + intros a Ha. by rewrite fn_lookup_insert_ne by lia.
      + unfold wf. cbn. rewrite fn_lookup_insert. lia.
      + right. eexists. split; [done|lia].
    - unfold contents. cbn. rewrite fn_lookup_insert, drop_0. done.
    - intros a Ha. by rewrite fn_lookup_insert_ne by lia.
    - done.
  Qed.
  Lemma reslice_ok w s i j : wf w s -> (0 <= i <= j)%Z -> (j <= Z.of_nat (s_cap s))%Z ->
    exists s', reslice s i j w = Ok (s', w) /\ wf w s' /\ s_arr s' = s_arr s /\ s_len s' = Z.to_nat (j - i) /\
      s_cap s' = s_cap s - Z.to_nat i /\ win w s' = drop (Z.to_nat i) (win w s) /\
      contents w s' = take (Z.to_nat (j - i)) (drop (Z.to_nat i) (win w s)) /\ s_off s' = s_off s + Z.to_nat i.
  Proof.
    intros Hwf Hi Hj. eexists. split; [unfold reslice; replace (_ && _)%bool with true by lia; reflexivity|].
    assert (HW : win w (mk_slice (s_arr s) (s_off s + Z.to_nat i) (Z.to_nat (j - i)) (s_cap s - Z.to_nat i)) = drop (Z.to_nat i) (win w s)).
    { unfold win. cbn. destruct (s_arr s) as [a|]; [|by rewrite drop_nil].
      rewrite <- drop_drop. rewrite skipn_firstn_comm. done. }
    split; [|split; [done|]]; [|split; [done|]; split; [done|]; split; [done|]; split; [|done]].
    - unfold wf in *. cbn. destruct (s_arr s); [lia|lia].
    - rewrite contents_win by (cbn; lia). cbn [s_len]. by rewrite HW.
  Qed.

  Context (zero : T) (growth : nat -> nat -> nat -> nat).
  Lemma append_spec w s vs : wf w s -> exists s' w', go_append zero growth s vs w = Ok (s', w') /\ sl_step w s w' s' /\
    contents w' s' = contents w s ++ vs /\ s_len s' = s_len s + length vs /\
    (s_len s + length vs <= s_cap s -> s_arr s' = s_arr s /\ s_cap s' = s_cap s /\ s_off s' = s_off s /\
       win w' s = splice (s_len s) vs (win w s)).
  Proof.
    intros Hwf. pose proof (wf_len_cap _ _ Hwf) as Hlc. unfold go_append.
    destruct (Nat.leb_spec (s_len s + length vs) (s_cap s)) as [Hc|Hc].
    - destruct (write_slice w s (s_len s) vs (s_len s + length vs) Hwf ltac:(lia) ltac:(lia)) as (w'&E&Hs&Hcont&Hwin&_).
      eexists _, w'. split; [unfold bind; rewrite E; reflexivity|]. split; [done|]. split; [|split; [done|]].
      + rewrite Hcont. unfold splice. rewrite contents_win by done.
        rewrite app_assoc. rewrite take_app_alt; [done|]. rewrite app_length, take_length, win_length by done. lia.
      + intros _. auto.
    - set (c := Nat.max (s_len s + length vs) (growth (w_an w) (s_cap s) (s_len s + length vs))).
      pose proof (contents_length w s Hwf) as Hl.
      destruct (alloc_spec w s (contents w s ++ vs ++ replicate (c - (s_len s + length vs)) zero) (s_len s + length vs)) as (w'&E&Hs&Hcont&_).
      { rewrite !app_length. lia. }
      eexists _, w'. split; [exact E|]. split; [done|]. split; [|split; [done|lia]].
      rewrite Hcont, app_assoc, take_app_alt; [done|]. rewrite app_length. lia.
  Qed.
  Lemma grow_spec w s n : wf w s -> (0 <= n)%Z -> exists s' w', s_Grow zero growth s n w = Ok (s', w') /\ sl_step w s w' s' /\
    contents w' s' = contents w s /\ s_len s' = s_len s /\ s_len s + Z.to_nat n <= s_cap s'.
  Proof.
    intros Hwf Hn. pose proof (wf_len_cap _ _ Hwf) as Hlc. unfold s_Grow. replace (n <? 0)%Z with false by lia.
    destruct (Nat.ltb_spec 0 (Z.to_nat n - (s_cap s - s_len s))) as [H|H].
    - destruct (reslice_ok w s 0 (Z.of_nat (s_cap s)) Hwf ltac:(lia) ltac:(lia)) as (f&E1&Hf&Ea&El&Ec&Ew&Econt&_).
      destruct (append_spec w f (replicate (Z.to_nat n - (s_cap s - s_len s)) zero) Hf) as (g&w1&E2&Hst&Hc&Hgl&_).
      pose proof (ss_wf _ _ _ _ Hst) as Hg. pose proof (wf_len_cap _ _ Hg) as Hgc. rewrite replicate_length in Hgl.
      destruct (reslice_ok w1 g 0 (Z.of_nat (s_len s)) Hg ltac:(lia) ltac:(lia)) as (s'&E3&Hs'&Ea'&El'&Ec'&Ew'&Econt'&_).
      exists s', w1. split; [|split; [|split; [|split]]].
      + unfold bind at 1. rewrite E1. unfold bind at 1. rewrite E2. exact E3.
      + eapply sl_same; [exact Ea|]. destruct Hst as [A1 A2 A3 A4 A5 A6 A7]. constructor; auto. by rewrite Ea'.
      + rewrite Econt', drop_0. rewrite Z.sub_0_r, Nat2Z.id.
        rewrite contents_win in Hc by done. apply (f_equal (take (s_len s))) in Hc. rewrite take_take in Hc.
        replace (s_len s `min` s_len g) with (s_len s) in Hc by lia. rewrite Hc.
        rewrite Econt, drop_0, Z.sub_0_r, Nat2Z.id. rewrite take_app_le by (rewrite take_length, win_length by done; lia).
        rewrite take_take, contents_win by done. f_equal. lia.
      + lia.
      + lia.
    - exists s, w. split; [done|]. split; [by apply sl_refl|]. split; [done|]. split; [done|]. lia.
  Qed.
  Lemma replace_spec w s i j vs : wf w s -> (0 <= i <= j)%Z -> (j <= Z.of_nat (s_len s))%Z ->
    exists s' w', s_Replace zero growth s i j vs w = Ok (s', w') /\ sl_step w s w' s' /\
      contents w' s' = take (Z.to_nat i) (contents w s) ++ vs ++ drop (Z.to_nat j) (contents w s).
  Proof.
    intros Hwf Hi Hj. pose proof (wf_len_cap _ _ Hwf) as Hlc. pose proof (contents_length w s Hwf) as Hl.
    unfold s_Replace. replace (_ && _)%bool with true by lia.
    set (l' := take (Z.to_nat i) (contents w s) ++ vs ++ drop (Z.to_nat j) (contents w s)).
    destruct (Nat.leb_spec (length l') (s_cap s)) as [H|H].
    - destruct (write_slice w s 0 (l' ++ replicate (s_len s - length l') zero) (length l') Hwf) as (w'&E&Hs&Hcont&_).
      { rewrite app_length, replicate_length. lia. } { lia. }
      eexists _, w'. split; [unfold bind; rewrite E; reflexivity|]. split; [done|].
      rewrite Hcont. unfold splice. rewrite take_0. cbn. rewrite <- app_assoc. by rewrite take_app_alt.
    - set (c := Nat.max (length l') (growth (w_an w) (s_cap s) (length l'))).
      destruct (alloc_spec w s (l' ++ replicate (c - length l') zero) (length l')) as (w'&E&Hs&Hcont&_).
      { rewrite app_length. lia. }
      eexists _, w'. split; [exact E|]. split; [done|]. rewrite Hcont. by rewrite take_app_alt.
  Qed.
  Lemma clone_spec w s : wf w s -> exists s' w', s_Clone zero growth s w = Ok (s', w') /\
    contents w' s' = contents w s /\ wf w' s' /\ w_an w <= w_an w' /\ w_vec w' = w_vec w /\ w_vn w' = w_vn w /\
    (forall a, a < w_an w -> w_arr w' a = w_arr w a) /\
    (s_arr s' = None \/ s_arr s' = Some (w_an w) /\ w_an w' = S (w_an w)).
  Proof.
    intros Hwf. unfold s_Clone. pose proof (contents_length w s Hwf) as Hl.
    destruct (s_arr s) as [a|] eqn:Ea.
    - set (c := Nat.max (s_len s) (growth (w_an w) 0 (s_len s))).
      destruct (alloc_spec w s (contents w s ++ replicate (c - s_len s) zero) (s_len s)) as (w'&E&Hs&Hcont&Harr&Han).
      { rewrite app_length. lia. }
      eexists _, w'. split; [exact E|]. destruct Hs as [A1 A2 A3 A4 A5 A6 A7].
      split; [rewrite Hcont; by rewrite take_app_alt|]. split; [done|]. split; [lia|]. split; [done|]. split; [done|]. split; [done|].
      right. done.
    - exists nil_slice, w. split; [done|]. split; [unfold contents; by rewrite Ea|]. split; [done|].
      split; [lia|]. split; [done|]. split; [done|]. split; [done|]. left. done.
  Qed.
End prims.
