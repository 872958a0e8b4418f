From Coq Require Import ZifyBool ZifyNat.
From Verif Require Import Base VecModel VecSpec VecProofs.

Section steps.
  Context {T : Type}.
  Notation W := (vworld T).
  Implicit Types (w : W) (s : slice) (vs l : list T) (v u : nat).
  Notation d_of w v := (v_d (w_vec w v)).

  Record inv w : Prop := {
    i_wf : forall v, v < w_vn w -> wf w (d_of w v);
    i_own : forall u v a, u < w_vn w -> v < w_vn w -> s_arr (d_of w u) = Some a -> s_arr (d_of w v) = Some a -> u = v;
    i_less : forall v u, v < w_vn w -> v_less (w_vec w v) = Some (CMethod u) -> u < v;
    i_equal : forall v u, v < w_vn w -> v_equal (w_vec w v) = Some (CMethod u) -> u < v }.

  Record frame w v w' : Prop := {
    fr_an : w_an w <= w_an w';
    fr_vn : w_vn w <= w_vn w';
    fr_vec : forall x, x < w_vn w -> x <> v -> w_vec w' x = w_vec w x;
    fr_arr : forall a, a < w_an w -> s_arr (d_of w v) <> Some a -> w_arr w' a = w_arr w a;
    fr_len : forall a, a < w_an w -> length (w_arr w' a) = length (w_arr w a);
    fr_own : s_arr (d_of w' v) = s_arr (d_of w v) \/ exists a, s_arr (d_of w' v) = Some a /\ w_an w <= a < w_an w';
    fr_new : forall u a, w_vn w <= u < w_vn w' -> s_arr (d_of w' u) = Some a -> w_an w <= a < w_an w' }.

  Lemma step_ok w v w1 s' w' : inv w -> v < w_vn w -> sl_step w (d_of w v) w1 s' ->
    w_arr w' = w_arr w1 -> w_an w' = w_an w1 -> w_vn w' = w_vn w1 -> d_of w' v = s' ->
    (forall x, x <> v -> w_vec w' x = w_vec w1 x) ->
    (forall u, v_less (w_vec w' v) = Some (CMethod u) -> u < v) ->
    (forall u, v_equal (w_vec w' v) = Some (CMethod u) -> u < v) ->
    inv w' /\ frame w v w' /\ vseq w' v = contents w1 s'.
  Proof.
    intros [I1 I2 I3 I4] Hv [A1 A2 A3 A4 A5 A6 A7] E1 E2 E3 E4 E5 E6 E7.
    rewrite A2 in E5. split; [|split].
    - constructor; rewrite E3, A3.
      + intros x Hx. destruct (decide (x = v)) as [->|Hne].
        * rewrite E4. unfold wf in *. rewrite E1, E2. done.
        * rewrite E5 by done. specialize (I1 x Hx). eapply wf_step; [| |exact I1].
          -- intros a Ha. rewrite E1. by apply A5.
          -- lia.
      + intros x y a Hx Hy Ex Ey. destruct (decide (x = v)) as [->|Hnx], (decide (y = v)) as [->|Hny]; auto.
        * exfalso. rewrite E4 in Ex. rewrite E5 in Ey by done. destruct A7 as [A7|(b&A7&?)].
          -- rewrite A7 in Ex. eauto.
          -- assert (a = b) as -> by congruence. specialize (I1 y Hy). unfold wf in I1. rewrite Ey in I1. lia.
        * exfalso. rewrite E4 in Ey. rewrite E5 in Ex by done. destruct A7 as [A7|(b&A7&?)].
          -- rewrite A7 in Ey. eauto.
          -- assert (a = b) as -> by congruence. specialize (I1 x Hx). unfold wf in I1. rewrite Ex in I1. lia.
        * rewrite E5 in Ex, Ey by done. eauto.
      + intros x y Hx Hy. destruct (decide (x = v)) as [->|Hne]; [auto|]. rewrite E5 in Hy by done. eauto.
      + intros x y Hx Hy. destruct (decide (x = v)) as [->|Hne]; [auto|]. rewrite E5 in Hy by done. eauto.
    - constructor; try lia.
      + intros. by apply E5.
      + intros a Ha Hs. rewrite E1. by apply A4.
      + intros a Ha. rewrite E1. by apply A5.
      + rewrite E4, E2. done.
    - unfold vseq. rewrite E4. unfold contents. by rewrite E1.
  Qed.
  Lemma set_ok w v w1 s' : inv w -> v < w_vn w -> sl_step w (d_of w v) w1 s' ->
    exists w', set_d v s' w1 = Ok (tt, w') /\ inv w' /\ frame w v w' /\ vseq w' v = contents w1 s' /\
      w_vn w' = w_vn w /\ w_an w' = w_an w1 /\ w_arr w' = w_arr w1.
  Proof.
    intros Hi Hv Hs. eexists. split; [reflexivity|].
    pose proof (ss_vec _ _ _ _ Hs) as Ev. pose proof (ss_vn _ _ _ _ Hs) as En.
    match goal with |- inv ?w' /\ _ => destruct (step_ok w v w1 s' w' Hi Hv Hs) as (?&?&?); try done; cbn end.
    - by rewrite fn_lookup_insert.
    - intros. by rewrite fn_lookup_insert_ne.
    - rewrite fn_lookup_insert. cbn. rewrite Ev. intros u; by apply (i_less _ Hi v u Hv).
    - rewrite fn_lookup_insert. cbn. rewrite Ev. intros u; by apply (i_equal _ Hi v u Hv).
  Qed.
  Lemma inplace_ok w v w' : inv w -> v < w_vn w -> sl_step w (d_of w v) w' (d_of w v) ->
    inv w' /\ frame w v w' /\ vseq w' v = contents w' (d_of w v) /\ w_vn w' = w_vn w.
  Proof.
    intros Hi Hv Hs. pose proof (ss_vec _ _ _ _ Hs) as Ev. pose proof (ss_vn _ _ _ _ Hs) as En.
    destruct (step_ok w v w' (d_of w v) w' Hi Hv Hs) as (?&?&?); try done.
    - by rewrite Ev.
    - rewrite Ev. intros u; by apply (i_less _ Hi v u Hv).
    - rewrite Ev. intros u; by apply (i_equal _ Hi v u Hv).
  Qed.
  Lemma frame_refl w v : inv w -> v < w_vn w -> frame w v w.
  Proof. intros. constructor; auto; lia. Qed.
  (** Other vectors keep their sequence. *)
  Lemma frame_other w v w' x : inv w -> v < w_vn w -> frame w v w' -> x < w_vn w -> x <> v -> vseq w' x = vseq w x.
  Proof.
    intros Hi Hv Hf Hx Hne. unfold vseq. rewrite (fr_vec _ _ _ Hf) by done. unfold contents.
    destruct (s_arr (d_of w x)) as [a|] eqn:E; [|done].
    rewrite (fr_arr _ _ _ Hf); [done| |].
    - pose proof (i_wf _ Hi x Hx) as H. unfold wf in H. rewrite E in H. lia.
    - intros E'. apply Hne. eapply i_own; eauto.
  Qed.
  (** A step on a vector made after [w]. *)
  Lemma frame_trans_same w v w1 w2 : frame w v w1 -> frame w1 v w2 -> v < w_vn w -> frame w v w2.
  Proof.
    intros [A1 A2 A3 A4 A5 A6 A7] [B1 B2 B3 B4 B5 B6 B7] Hv. constructor; try lia.
    - intros x Hx Hne. rewrite B3, A3; [done|done|done|lia|done].
    - intros a Ha Hs. rewrite B4, A4; [done|done|done|lia|]. destruct A6 as [->|(b&->&?)]; [done|]. intros [= ->]. lia.
    - intros a Ha. rewrite B5, A5 by lia. done.
    - destruct B6 as [B6|(b&B6&?)].
      + rewrite B6. destruct A6 as [->|(b&->&?)]; [auto|right; exists b; split; [done|lia]].
      + right. exists b. split; [done|lia].
    - intros u a Hu Ha. destruct (decide (u < w_vn w1)) as [H|H].
      + destruct (decide (u = v)) as [->|Hne]; [lia|]. rewrite B3 in Ha by done. assert (w_an w <= a < w_an w1) by (eapply A7; [|done]; lia). lia.
      + assert (w_an w1 <= a < w_an w2) by (eapply B7; [|done]; lia). lia.
  Qed.
  Lemma frame_trans_new w v w1 u w2 : frame w v w1 -> frame w1 u w2 -> v < w_vn w -> w_vn w <= u < w_vn w1 ->
    inv w1 -> frame w v w2.
  Proof.
    intros [A1 A2 A3 A4 A5 A6 A7] [B1 B2 B3 B4 B5 B6 B7] Hv Hu Hi. constructor; try lia.
    - intros x Hx Hne. rewrite B3, A3; [done|done|done|lia|lia].
    - intros a Ha Hs. rewrite B4; [by apply A4|lia|]. intros E. specialize (A7 u a Hu E). lia.
    - intros a Ha. rewrite B5, A5 by lia. done.
    - rewrite B3 by lia. destruct A6 as [->|(b&->&?)]; [auto|right; exists b; split; [done|lia]].
    - intros x a Hx Ha. destruct (decide (x < w_vn w1)) as [H|H].
      + destruct (decide (x = u)) as [->|Hne].
        * destruct B6 as [B6|(b&B6&?)].
          -- rewrite B6 in Ha. specialize (A7 u a Hu Ha). lia.
          -- assert (a = b) as -> by congruence. lia.
        * rewrite B3 in Ha by done. assert (w_an w <= a < w_an w1) by (eapply A7; [|done]; lia). lia.
      + assert (w_an w1 <= a < w_an w2) by (eapply B7; [|done]; lia). lia.
  Qed.

  (** * Primitives on the contents *)
  Lemma Len_eq w v : Len v w = Ok (Z.of_nat (s_len (d_of w v)), w).
  Proof. done. Qed.
  Lemma idx_eq w s i : wf w s -> idx s i w = match getZ (contents w s) i with Some x => Ok (x, w) | None => Panic end.
  Proof. done. Qed.
  Lemma getZ_in w s i : wf w s -> (0 <= i < Z.of_nat (s_len s))%Z ->
    exists x, getZ (contents w s) i = Some x /\ contents w s !! Z.to_nat i = Some x.
  Proof.
    intros Hwf Hi. unfold getZ. rewrite bool_decide_eq_true_2 by lia.
    destruct (lookup_lt_is_Some_2 (contents w s) (Z.to_nat i)) as [x Hx]; [rewrite contents_length by done; lia|].
    exists x. done.
  Qed.
  Lemma take_splice_set n i x l : i < n -> n <= length l -> take n (splice i [x] l) = <[i:=x]> (take n l).
  Proof.
    intros Hi Hn. apply list_eq. intros k. destruct (decide (k < n)) as [Hk|Hk].
    - rewrite lookup_take by done. rewrite lookup_splice by lia. cbn.
      destruct (decide (k = i)) as [->|Hne].
      + rewrite decide_False by lia. rewrite decide_True by lia. replace (i - i) with 0 by lia.
        rewrite list_lookup_insert by (rewrite take_length; lia). done.
      + rewrite list_lookup_insert_ne by done. rewrite lookup_take by done. repeat case_decide; try done. lia.
    - rewrite !lookup_ge_None_2; [done| |]; rewrite ?insert_length, take_length; lia.
  Qed.
  Lemma set_idx_ok w s i x : wf w s -> (0 <= i < Z.of_nat (s_len s))%Z -> exists w',
    set_idx s i x w = Ok (tt, w') /\ sl_step w s w' s /\ contents w' s = <[Z.to_nat i:=x]> (contents w s) /\ w_an w' = w_an w.
  Proof.
    intros Hwf Hi. pose proof (wf_len_cap _ _ Hwf) as Hlc. unfold set_idx. replace (_ && _)%bool with true by lia.
    destruct (write_slice w s (Z.to_nat i) [x] (s_len s) Hwf) as (w'&E&Hs&Hc&_&Ha); [cbn; lia|lia|].
    replace (mk_slice (s_arr s) (s_off s) (s_len s) (s_cap s)) with s in * by (by destruct s).
    exists w'. split; [done|]. split; [done|]. split; [|done]. rewrite Hc, contents_win by done.
    apply take_splice_set; [lia|]. rewrite win_length by done. lia.
  Qed.
  Lemma write_all w s l : wf w s -> length l = s_len s -> exists w',
    write_at s 0 l w = Ok (tt, w') /\ sl_step w s w' s /\ contents w' s = l.
  Proof.
    intros Hwf Hl. pose proof (wf_len_cap _ _ Hwf) as Hlc.
    destruct (write_slice w s 0 l (s_len s) Hwf) as (w'&E&Hs&Hc&_); [lia|lia|].
    replace (mk_slice (s_arr s) (s_off s) (s_len s) (s_cap s)) with s in * by (by destruct s).
    exists w'. split; [done|]. split; [done|]. rewrite Hc. unfold splice. rewrite take_0. cbn. by rewrite take_app_alt.
  Qed.
  (** Shortening within the same array. *)
  Lemma shorten w s n : wf w s -> n <= s_len s -> exists s', reslice s 0 (Z.of_nat n) w = Ok (s', w) /\ sl_step w s w s' /\
    contents w s' = take n (contents w s) /\ s_arr s' = s_arr s /\ wf w s' /\ s_len s' = n /\ win w s' = win w s /\ s_cap s' = s_cap s /\ s_off s' = s_off s.
  Proof.
    intros Hwf Hn. pose proof (wf_len_cap _ _ Hwf) as Hlc.
    destruct (reslice_ok w s 0 (Z.of_nat n) Hwf ltac:(lia) ltac:(lia)) as (s'&E&Hs'&Ea&El&Ec&Ew&Hc&Ho).
    exists s'. split; [done|]. split; [constructor; auto|]. split; [|split; [done|split; [done|split; [lia|split; [by rewrite Ew|split; lia]]]]].
    rewrite Hc, contents_win, take_take by done. f_equal. lia.
  Qed.

  (** New *)
  Lemma New_ok w less equal : inv w -> (forall u, less = Some (CMethod u) -> u < w_vn w) -> (forall u, equal = Some (CMethod u) -> u < w_vn w) ->
    exists w', New less equal w = Ok (w_vn w, w') /\ inv w' /\ vseq w' (w_vn w) = [] /\
      w_vn w' = S (w_vn w) /\ (forall v, v < w_vn w -> frame w v w') /\ w_arr w' = w_arr w /\ w_an w' = w_an w /\
      (forall v, v < w_vn w -> w_vec w' v = w_vec w v) /\ w_vec w' (w_vn w) = mk_vec nil_slice less equal.
  Proof.
    intros Hi H1 H2. eexists. split; [reflexivity|]. cbn. split.
    { constructor; cbn.
      - intros x Hx. destruct (decide (x = w_vn w)) as [->|Hne]; [rewrite fn_lookup_insert; done|].
        rewrite fn_lookup_insert_ne by done. apply (i_wf _ Hi). lia.
      - intros x y a Hx Hy. destruct (decide (x = w_vn w)) as [->|Hnx]; [rewrite fn_lookup_insert; done|].
        destruct (decide (y = w_vn w)) as [->|Hny]; [rewrite fn_lookup_insert; done|].
        rewrite !fn_lookup_insert_ne by done. apply (i_own _ Hi); lia.
      - intros x y Hx. destruct (decide (x = w_vn w)) as [->|Hne]; [rewrite fn_lookup_insert; cbn; auto|].
        rewrite fn_lookup_insert_ne by done. apply (i_less _ Hi). lia.
      - intros x y Hx. destruct (decide (x = w_vn w)) as [->|Hne]; [rewrite fn_lookup_insert; cbn; auto|].
        rewrite fn_lookup_insert_ne by done. apply (i_equal _ Hi). lia. }
    split; [unfold vseq; cbn; by rewrite fn_lookup_insert|]. split; [done|]. split; [|split; [done|split; [done|split; [|by rewrite fn_lookup_insert]]]].
    - intros v Hv. constructor; cbn; auto.
      + intros x Hx _. by rewrite fn_lookup_insert_ne by lia.
      + rewrite fn_lookup_insert_ne by lia. auto.
      + intros u a Hu. assert (u = w_vn w) as -> by lia. by rewrite fn_lookup_insert.
    - intros v Hv. by rewrite fn_lookup_insert_ne by lia.
  Qed.

  Context (zero : T) (growth : nat -> nat -> nat -> nat).
  Context (auto_less auto_equal : option (T -> T -> bool)).
  Context (srt srt_stable : (T -> T -> Z) -> list T -> list T).

  (** * Calls *)
  Notation exec := (v_exec zero growth auto_equal srt srt_stable).
  Definition handed_ok w v (c : v_call T) (r : v_res T) w' : Prop :=
    forall s, r = RSlice s -> wf w' s /\
      (c <> VCloneToSlice -> s_arr s = None \/ s_arr s = s_arr (d_of w v)) /\
      (c = VCloneToSlice -> s_arr s = None \/ (s_arr s = Some (w_an w) /\ w_an w' = S (w_an w) /\ w_vec w' = w_vec w /\ w_vn w' = w_vn w)).
  (** New vectors are the ones an answer names. *)
  Definition news_ok w (c : v_call T) (r : v_res T) w' : Prop :=
    match c with
    | VSplitOff _ | VClone => r = RVec (w_vn w) /\ w_vn w' = S (w_vn w)
    | _ => w_vn w' = w_vn w
    end.
  Definition good w v c (a : v_ans T) l' : Prop :=
    exists r w', exec v c w = Ok (r, w') /\ answers w' r a /\ vseq w' v = l' /\ inv w' /\ frame w v w' /\
      handed_ok w v c r w' /\ news_ok w c r w'.

  Lemma nth_elem_in i l x : (0 <= i)%Z -> l !! Z.to_nat i = Some x -> nth_elem zero i l = AElem x true.
  Proof. intros Hi Hx. unfold nth_elem. replace (0 <=? i)%Z with true by lia. by rewrite Hx. Qed.
  Lemma nth_elem_out i l : (i < 0 \/ Z.of_nat (length l) <= i)%Z -> nth_elem zero i l = AElem zero false.
  Proof. intros Hi. unfold nth_elem. destruct (Z.leb_spec 0 i); [|done]. by rewrite lookup_ge_None_2 by lia. Qed.

  Section call.
    Variable w : W.
    Variable v : nat.
    Hypothesis Hi : inv w.
    Hypothesis Hv : v < w_vn w.
    Let d := d_of w v.
    Let Hd : wf w d := i_wf w Hi v Hv.
    Let l := vseq w v.
    Lemma len_l : length l = s_len d.
    Proof. apply contents_length, Hd. Qed.

    (** A call that leaves the state alone. *)
    Lemma good_pure c r a : exec v c w = Ok (r, w) -> answers w r a -> (forall s, r = RSlice s -> wf w s /\ c <> VCloneToSlice /\ (s_arr s = None \/ s_arr s = s_arr d)) ->
      news_ok w c r w -> good w v c a l.
    Proof.
      intros E Ha Hh Hn. exists r, w. split; [done|]. split; [done|]. split; [done|]. split; [done|].
      split; [by apply frame_refl|]. split; [|done].
      intros s Es. destruct (Hh s Es) as (?&?&?). split; [done|]. split; [auto|congruence].
    Qed.
    (** A call that replaces the slice of v. *)
    Lemma good_set (m : M W unit) c w1 s' a r : sl_step w d w1 s' ->
      (forall w', set_d v s' w1 = Ok (tt, w') -> exec v c w = Ok (r, w') /\ answers w' r a) ->
      (forall s, r <> RSlice s) -> (forall w', w_vn w' = w_vn w -> news_ok w c r w') ->
      good w v c a (contents w1 s').
    Proof.
      intros Hs He Hr Hn. destruct (set_ok w v w1 s' Hi Hv Hs) as (w'&E&I&F&C&N&_).
      destruct (He w' E) as [E1 E2]. exists r, w'. split; [done|]. split; [done|]. split; [done|]. split; [done|]. split; [done|].
      split; [|auto]. intros s ->. by destruct (Hr s).
    Qed.
    Lemma good_inplace c w' a r l' : sl_step w d w' d -> contents w' d = l' ->
      exec v c w = Ok (r, w') -> answers w' r a ->
      (forall s, r <> RSlice s) -> (w_vn w' = w_vn w -> news_ok w c r w') ->
      good w v c a l'.
    Proof.
      intros Hs Hc He Ha Hr Hn. destruct (inplace_ok w v w' Hi Hv Hs) as (I&F&C&N).
      exists r, w'. split; [done|]. split; [done|]. split; [rewrite C; done|]. split; [done|]. split; [done|].
      split; [|auto]. intros s ->. by destruct (Hr s).
    Qed.

    Lemma VLen_ok : good w v VLen (ANum (Z.of_nat (length l))) l.
    Proof. apply (good_pure _ (RNum (Z.of_nat (s_len d)))); [done| |done|done]. cbn. by rewrite len_l. Qed.
    Lemma Get_ok i : good w v (VGet i) (nth_elem zero i l) l.
    Proof.
      destruct (decide (0 <= i < Z.of_nat (s_len d))%Z) as [H|H].
      - destruct (getZ_in w d i Hd H) as (x&E1&E2).
        apply (good_pure _ (RElem x true)); [|rewrite (nth_elem_in i l x) by (done || lia); done|done|done].
        cbn [v_exec]. unfold Get, bind, get_d, ret. rewrite Len_eq. cbv beta iota. fold d. replace ((i >=? _)%Z || (i <? 0)%Z) with false by lia.
        unfold idx. fold d. rewrite E1. done.
      - apply (good_pure _ (RElem zero false)); [|rewrite nth_elem_out by (rewrite len_l; lia); done|done|done].
        cbn [v_exec]. unfold Get, bind, get_d, ret. rewrite Len_eq. cbv beta iota. fold d. by replace ((i >=? _)%Z || (i <? 0)%Z) with true by lia.
    Qed.
    Lemma First_ok : good w v VFirst (nth_elem zero 0 l) l.
    Proof.
      destruct (decide (0 < s_len d)) as [H|H].
      - destruct (getZ_in w d 0 Hd ltac:(lia)) as (x&E1&E2).
        apply (good_pure _ (RElem x true)); [|rewrite (nth_elem_in 0 l x) by (done || lia); done|done|done].
        cbn [v_exec]. unfold First, bind, get_d, ret. rewrite Len_eq. cbv beta iota. fold d. replace (Z.of_nat (s_len d) =? 0)%Z with false by lia.
        unfold idx. fold d. rewrite E1. done.
      - apply (good_pure _ (RElem zero false)); [|rewrite nth_elem_out by (rewrite len_l; lia); done|done|done].
        cbn [v_exec]. unfold First, bind, get_d, ret. rewrite Len_eq. cbv beta iota. fold d. by replace (Z.of_nat (s_len d) =? 0)%Z with true by lia.
    Qed.
    Lemma Last_ok : good w v VLast (nth_elem zero (Z.of_nat (length l) - 1) l) l.
    Proof.
      rewrite len_l. destruct (decide (0 < s_len d)) as [H|H].
      - destruct (getZ_in w d (Z.of_nat (s_len d) - 1) Hd ltac:(lia)) as (x&E1&E2).
        apply (good_pure _ (RElem x true)); [|rewrite (nth_elem_in _ l x) by (done || lia); done|done|done].
        cbn [v_exec]. unfold Last, bind, get_d, ret. rewrite Len_eq. cbv beta iota. fold d. replace (Z.of_nat (s_len d) =? 0)%Z with false by lia.
        unfold idx. fold d. rewrite E1. done.
      - apply (good_pure _ (RElem zero false)); [|rewrite nth_elem_out by lia; done|done|done].
        cbn [v_exec]. unfold Last, bind, get_d, ret. rewrite Len_eq. cbv beta iota. fold d. by replace (Z.of_nat (s_len d) =? 0)%Z with true by lia.
    Qed.
    Lemma Set_ok i x : good w v (VSet i x) (ABool (in_range i l)) (if in_range i l then <[Z.to_nat i := x]> l else l).
    Proof.
      unfold in_range. rewrite len_l. destruct (decide (0 <= i < Z.of_nat (s_len d))%Z) as [H|H].
      - destruct (set_idx_ok w d i x Hd H) as (w'&E&Hs&Hc&_). replace (_ && _)%bool with true by lia.
        apply (good_inplace _ w' _ (RBool true)); [done|done| |done|done|done].
        cbn [v_exec]. unfold Set_, bind, get_d, ret. rewrite Len_eq. cbv beta iota. fold d. replace ((i >=? _)%Z || (i <? 0)%Z) with false by lia.
        fold d. by rewrite E.
      - replace (_ && _)%bool with false by lia. apply (good_pure _ (RBool false)); [|done|done|done].
        cbn [v_exec]. unfold Set_, bind, get_d, ret. rewrite Len_eq. cbv beta iota. fold d. by replace ((i >=? _)%Z || (i <? 0)%Z) with true by lia.
    Qed.
    Lemma Clear_ok : good w v VClear AUnit [].
    Proof.
      destruct (shorten w d 0 Hd ltac:(lia)) as (s'&E&Hs&Hc&_). rewrite take_0 in Hc. rewrite <- Hc.
      apply (good_set (ret tt) _ w s' _ RUnit); [done| |done|done]. intros w' E'. split; [|done].
      cbn [v_exec]. unfold Clear, bind, get_d. fold d. change (reslice d 0 0 w) with (reslice d 0 (Z.of_nat 0) w). rewrite E, E'. done.
    Qed.
    Lemma Remove_ok_gen i : exists r w', Remove zero v i w = Ok (r, w') /\
      nth_elem zero i l = AElem (fst r) (snd r) /\ vseq w' v = removed i l /\ inv w' /\ frame w v w' /\ w_vn w' = w_vn w.
    Proof.
      unfold removed, in_range. rewrite len_l. destruct (decide (0 <= i < Z.of_nat (s_len d))%Z) as [H|H].
      - replace (_ && _)%bool with true by lia. destruct (getZ_in w d i Hd H) as (x&E1&E2).
        rewrite (nth_elem_in i l x) by (done || lia).
        assert (Hlen := contents_length w d Hd).
        assert (exists s' w1, (if (i =? Z.of_nat (s_len d) - 1)%Z then d' <- reslice d 0 i ;; set_d v d'
           else dst <- reslice_from d i ;; src <- reslice_from d (i + 1) ;; go_copy dst src ;;;
             d' <- reslice d 0 (Z.of_nat (s_len d) - 1) ;; set_d v d') w = set_d v s' w1 /\ sl_step w d w1 s' /\
           contents w1 s' = delete (Z.to_nat i) l) as (s'&w1&E&Hs&Hc).
        { destruct (Z.eqb_spec i (Z.of_nat (s_len d) - 1)) as [->|Hne].
          - replace (Z.of_nat (s_len d) - 1)%Z with (Z.of_nat (s_len d - 1)) by lia.
            destruct (shorten w d (s_len d - 1) Hd ltac:(lia)) as (s'&E&Hs&Hc&_). exists s', w. split; [unfold bind; by rewrite E|].
            split; [done|]. rewrite Hc, Nat2Z.id. symmetry. rewrite delete_take_drop. fold l. rewrite drop_ge by (rewrite len_l; lia).
            by rewrite app_nil_r.
          - pose proof (wf_len_cap _ _ Hd) as Hlc.
            destruct (reslice_ok w d i (Z.of_nat (s_len d)) Hd ltac:(lia) ltac:(lia)) as (dst&Ed&Hwd&Ead&Eld&Ecd&Ewd&_&Eod).
            destruct (reslice_ok w d (i + 1) (Z.of_nat (s_len d)) Hd ltac:(lia) ltac:(lia)) as (src&Es&Hws&Eas&Els&Ecs&Ews&Ecs2&_).
            pose proof (contents_length w src Hws) as Hls.
            destruct (write_slice w d (Z.to_nat i) (contents w src) (s_len d - 1) Hd ltac:(lia) ltac:(lia)) as (w1&Ew&Hs1&Hc1&_).
            assert (Ewd2 : write_at dst 0 (take (s_len dst) (contents w src)) w = Ok (tt, w1)).
            { rewrite take_ge by lia. rewrite <- Ew. unfold write_at. rewrite Ead, Eod. destruct (s_arr d); [|done]. by rewrite Nat.add_0_r. }
            exists (mk_slice (s_arr d) (s_off d) (s_len d - 1) (s_cap d)), w1. split; [|split; [done|]].
            + unfold reslice_from. unfold bind at 1. rewrite Ed. unfold bind at 1. rewrite Es. unfold bind at 1, go_copy.
              unfold bind at 1, read. rewrite Ewd2. unfold bind. unfold reslice.
              replace ((0 <=? 0)%Z && _ && _) with true by lia. cbn. do 2 f_equal; f_equal; lia.
            + rewrite Hc1, delete_take_drop. unfold l, vseq. fold d. rewrite Ecs2, contents_win by done.
              apply list_eq. intros k. destruct (decide (k < s_len d - 1)) as [Hk|Hk].
              * rewrite lookup_take by done. rewrite lookup_splice by (rewrite win_length by done; lia).
                rewrite take_length, drop_length, win_length by done.
                case_decide as Hki.
                -- rewrite lookup_app_l by (rewrite !take_length, win_length by done; lia). rewrite !lookup_take by lia. done.
                -- rewrite decide_True by lia. rewrite lookup_take, lookup_drop by lia.
                   rewrite lookup_app_r by (rewrite !take_length, win_length by done; lia).
                   rewrite !take_length, win_length, lookup_drop by done. rewrite lookup_take by lia. f_equal. lia.
              * rewrite !lookup_ge_None_2; [done| |]; rewrite ?app_length, ?drop_length, ?take_length, ?win_length by done; lia. }
        destruct (set_ok w v w1 s' Hi Hv Hs) as (w'&E'&I&F&C&N&_).
        exists (x, true), w'. split; [|split; [done|split; [by rewrite C|auto]]].
        unfold Remove, bind at 1, Len, bind at 1, get_d, ret. fold d. replace ((i >=? _)%Z || (i <? 0)%Z) with false by lia.
        unfold bind at 1. fold d. unfold bind at 1. unfold idx. fold d. rewrite E1. unfold bind at 1. rewrite E, E'. done.
      - replace (_ && _)%bool with false by lia. rewrite nth_elem_out by (rewrite len_l; lia).
        exists (zero, false), w. split; [|split; [done|split; [done|split; [done|split; [by apply frame_refl|done]]]]].
        unfold Remove, bind, get_d, ret. rewrite Len_eq. cbv beta iota. fold d. by replace ((i >=? _)%Z || (i <? 0)%Z) with true by lia.
    Qed.
    Lemma elem_ans w' (r : T * bool) a : a = AElem (fst r) (snd r) -> answers w' (RElem (fst r) (snd r)) a.
    Proof. intros ->. done. Qed.
    Lemma Remove_ok i : good w v (VRemove i) (nth_elem zero i l) (removed i l).
    Proof.
      destruct (Remove_ok_gen i) as (r&w'&E&Ha&Hs&I&F&N). exists (RElem (fst r) (snd r)), w'.
      split; [cbn; unfold bind; by rewrite E|]. split; [by apply elem_ans|]. split; [done|]. split; [done|]. split; [done|]. split; [done|done].
    Qed.
    Lemma Pop_ok : good w v VPop (nth_elem zero (Z.of_nat (length l) - 1) l) (removed (Z.of_nat (length l) - 1) l).
    Proof.
      destruct (Remove_ok_gen (Z.of_nat (length l) - 1)) as (r&w'&E&Ha&Hs&I&F&N). exists (RElem (fst r) (snd r)), w'.
      split. { cbn [v_exec]. unfold Pop, bind, get_d, ret. rewrite Len_eq. cbv beta iota. fold d. rewrite <- len_l, E. done. }
      split; [by apply elem_ans|]. split; [done|]. split; [done|]. split; [done|]. split; [done|done].
    Qed.
    Lemma CAR_ok i x a l' : v_spec zero srt srt_stable (cmp_equal auto_equal (S v) w v) (VConpareAndRemove i x) l = Some (a, l') ->
      good w v (VConpareAndRemove i x) a l'.
    Proof.
      cbn [v_spec]. unfold in_range. rewrite len_l. destruct (decide (0 <= i < Z.of_nat (s_len d))%Z) as [H|H].
      - replace (_ && _)%bool with true by lia. destruct (getZ_in w d i Hd H) as (y&E1&E2).
        change (contents w d) with l in E2. rewrite E2.
        destruct (cmp_equal auto_equal (S v) w v) as [eq|] eqn:Eq; [|done]. destruct (eq y x) eqn:Exy; intros [= <- <-].
        + destruct (Remove_ok_gen i) as (r&w'&E&Ha&Hs&I&F&N). exists (RElem (fst r) (snd r)), w'.
          split.
          { cbn [v_exec]. unfold ConpareAndRemove, bind, get_d, ret. rewrite Len_eq. cbv beta iota. fold d. replace ((i <? 0)%Z || _) with false by lia.
            unfold idx. fold d. rewrite E1. unfold with_res, lift, CmpEqual, call_cmp. rewrite Eq, Exy, E. done. }
          split; [by apply elem_ans|]. split; [done|]. split; [done|]. split; [done|]. split; [done|done].
        + apply (good_pure _ (RElem zero false)); [|done|done|done].
          cbn [v_exec]. unfold ConpareAndRemove, bind, get_d, ret. rewrite Len_eq. cbv beta iota. fold d. replace ((i <? 0)%Z || _) with false by lia.
          unfold idx. fold d. rewrite E1. unfold with_res, lift, CmpEqual, call_cmp. rewrite Eq, Exy. done.
      - replace (_ && _)%bool with false by lia. intros [= <- <-]. apply (good_pure _ (RElem zero false)); [|done|done|done].
        cbn [v_exec]. unfold ConpareAndRemove, bind, get_d, ret. rewrite Len_eq. cbv beta iota. fold d. by replace ((i <? 0)%Z || _) with true by lia.
    Qed.
    Lemma CAR_panic i x : v_spec zero srt srt_stable (cmp_equal auto_equal (S v) w v) (VConpareAndRemove i x) l = None ->
      exec v (VConpareAndRemove i x) w = Panic.
    Proof.
      cbn [v_spec]. unfold in_range. rewrite len_l. destruct (decide (0 <= i < Z.of_nat (s_len d))%Z) as [H|H].
      - replace (_ && _)%bool with true by lia. destruct (getZ_in w d i Hd H) as (y&E1&E2).
        change (contents w d) with l in E2. rewrite E2.
        destruct (cmp_equal auto_equal (S v) w v) as [eq|] eqn:Eq; [by destruct (eq y x)|]. intros _.
        cbn [v_exec]. unfold ConpareAndRemove, bind, get_d, ret. rewrite Len_eq. cbv beta iota. fold d. replace ((i <? 0)%Z || _) with false by lia.
        unfold idx. fold d. rewrite E1. unfold with_res, lift, CmpEqual, call_cmp. rewrite Eq. done.
      - replace (_ && _)%bool with false by lia. done.
    Qed.
    Lemma Push_gen vs : exists w', Push zero growth v vs w = Ok (tt, w') /\ vseq w' v = l ++ vs /\ inv w' /\ frame w v w' /\ w_vn w' = w_vn w.
    Proof.
      unfold Push, bind at 1. rewrite Len_eq. fold d. unfold bind at 1, Cap, bind at 1, get_d, ret. fold d.
      destruct (Z.gtb_spec (Z.of_nat (s_len d) + Z.of_nat (length vs)) (Z.of_nat (s_cap d))) as [H|H].
      - destruct (grow_spec zero growth w d (Z.of_nat (length vs)) Hd ltac:(lia)) as (s1&w1&E1&S1&C1&L1&_).
        destruct (set_ok w v w1 s1 Hi Hv S1) as (w2&E2&I2&F2&Q2&N2&_).
        unfold bind at 1, Grow, bind at 1, get_d. fold d. unfold bind at 1. rewrite E1, E2.
        assert (Hv2 : v < w_vn w2) by lia.
        pose proof (i_wf _ I2 v Hv2) as Hw2.
        destruct (append_spec zero growth w2 (d_of w2 v) vs Hw2) as (s3&w3&E3&S3&C3&_).
        destruct (set_ok w2 v w3 s3 I2 Hv2 S3) as (w4&E4&I4&F4&Q4&N4&_).
        exists w4. split; [unfold bind; rewrite E3; exact E4|]. split; [|split; [done|split; [by eapply frame_trans_same|lia]]].
        rewrite Q4, C3. unfold vseq in Q2. rewrite Q2, C1. done.
      - unfold bind at 1. unfold bind at 1, get_d. fold d.
        destruct (append_spec zero growth w d vs Hd) as (s3&w3&E3&S3&C3&_).
        destruct (set_ok w v w3 s3 Hi Hv S3) as (w4&E4&I4&F4&Q4&N4&_).
        exists w4. split; [unfold bind; rewrite E3; exact E4|]. split; [by rewrite Q4, C3|auto].
    Qed.
    Lemma Push_ok vs : good w v (VPush vs) AUnit (l ++ vs).
    Proof.
      destruct (Push_gen vs) as (w'&E&Q&I&F&N). exists RUnit, w'. split; [cbn; unfold bind; by rewrite E|]. repeat (split; [done|]). done.
    Qed.
    Lemma Swap_ok i j : good w v (VSwap i j) AUnit (if in_range i l && in_range j l then
          match l !! Z.to_nat i, l !! Z.to_nat j with Some a, Some b => <[Z.to_nat j := a]> (<[Z.to_nat i := b]> l) | _, _ => l end
        else l).
    Proof.
      unfold in_range. rewrite len_l.
      destruct (decide (0 <= i < Z.of_nat (s_len d) /\ 0 <= j < Z.of_nat (s_len d))%Z) as [[H1 H2]|H].
      - replace (_ && _ && _)%bool with true by lia.
        destruct (getZ_in w d i Hd H1) as (x&E1&E1'). destruct (getZ_in w d j Hd H2) as (y&E2&E2').
        change (contents w d) with l in E1', E2'. rewrite E1', E2'.
        destruct (set_idx_ok w d i y Hd H1) as (w1&E3&S1&C1&_).
        assert (Hd1 : wf w1 d) by apply S1.
        destruct (set_idx_ok w1 d j x Hd1 H2) as (w2&E4&S2&C2&_).
        apply (good_inplace _ w2 _ RUnit); [by eapply sl_trans|by rewrite C2, C1| |done|done|done].
        cbn [v_exec]. unfold Swap, bind, get_d, ret. rewrite Len_eq. cbv beta iota. fold d. replace (_ || _ || _ || _)%bool with false by lia.
        fold d. unfold idx. rewrite E2. cbv beta iota. rewrite E1. cbv beta iota. rewrite E3, E4. done.
      - replace (_ && _ && _)%bool with false by lia. apply (good_pure _ RUnit); [|done|done|done].
        cbn [v_exec]. unfold Swap, bind, get_d, ret. rewrite Len_eq. cbv beta iota. fold d. by replace (_ || _ || _ || _)%bool with true by lia.
    Qed.
    Lemma Replace_gen c i j vs : (good_range i j l = true) ->
      (exec v c = (Replace zero growth v i j vs ;;; ret RUnit)) -> (forall r w', news_ok w c r w' <-> w_vn w' = w_vn w) ->
      good w v c AUnit (take (Z.to_nat i) l ++ vs ++ drop (Z.to_nat j) l).
    Proof.
      unfold good_range. rewrite len_l. intros H He Hn.
      destruct (replace_spec zero growth w d i j vs Hd) as (s'&w1&E&S1&C1); [lia|lia|].
      change l with (contents w d). rewrite <- C1.
      apply (good_set (ret tt) _ w1 s' _ RUnit); [done| |done|].
      - intros w' E'. rewrite He. split; [|done]. unfold Replace, bind, get_d. fold d. by rewrite E, E'.
      - intros w' ?. by apply Hn.
    Qed.
    Lemma Replace_panic i j vs : good_range i j l = false -> Replace zero growth v i j vs w = Panic.
    Proof.
      unfold good_range. rewrite len_l. intros H. unfold Replace, bind, get_d, s_Replace. fold d. by rewrite H.
    Qed.
    Lemma Reverse_ok : good w v VReverse AUnit (rev l).
    Proof.
      destruct (write_all w d (rev l) Hd) as (w'&E&S1&C1); [rewrite rev_length; apply len_l|].
      apply (good_inplace _ w' _ RUnit); [done|done| |done|done|done].
      cbn [v_exec]. unfold Reverse, s_Reverse, bind, get_d, read. fold d. change (contents w d) with l. by rewrite E.
    Qed.
    Lemma Sort_ok less equal : (forall f l, srt f l ≡ₚ l) -> good w v (VSortFunc less equal) AUnit (srt (three less equal) l).
    Proof.
      intros Hsrt. destruct (write_all w d (srt (three less equal) l) Hd) as (w'&E&S1&C1); [rewrite Hsrt; apply len_l|].
      apply (good_inplace _ w' _ RUnit); [done|done| |done|done|done].
      cbn [v_exec]. unfold SortFunc, bind, get_d, read. fold d. change (contents w d) with l. by rewrite E.
    Qed.
    Lemma SortStable_ok less equal : (forall f l, srt_stable f l ≡ₚ l) -> good w v (VSortStableFunc less equal) AUnit (srt_stable (three less equal) l).
    Proof.
      intros Hsrt. destruct (write_all w d (srt_stable (three less equal) l) Hd) as (w'&E&S1&C1); [rewrite Hsrt; apply len_l|].
      apply (good_inplace _ w' _ RUnit); [done|done| |done|done|done].
      cbn [v_exec]. unfold SortStableFunc, bind, get_d, read. fold d. change (contents w d) with l. by rewrite E.
    Qed.
    Lemma Slice_ok : good w v VSlice (ASeq l) l.
    Proof.
      apply (good_pure _ (RSlice d)); [done|done| |done]. intros s [= <-]. split; [done|]. split; [done|]. auto.
    Qed.
    Lemma SliceCut_ok i j : good w v (VSliceCut i j) (ASeq (if good_range i j l then drop (Z.to_nat i) (take (Z.to_nat j) l) else [])) l.
    Proof.
      unfold good_range. rewrite len_l. pose proof (wf_len_cap _ _ Hd) as Hlc.
      destruct (decide (0 <= i <= j /\ j <= Z.of_nat (s_len d))%Z) as [H|H].
      - replace (_ && _ && _)%bool with true by lia.
        destruct (reslice_ok w d i j Hd ltac:(lia) ltac:(lia)) as (s&E&Hs&Ea&_&_&_&Hc&_).
        apply (good_pure _ (RSlice s)).
        + cbn [v_exec]. unfold SliceCut, bind, get_d, ret. rewrite Len_eq. cbv beta iota. fold d. replace (_ || _ || _)%bool with false by lia. fold d. by rewrite E.
        + cbn. rewrite Hc. unfold l, vseq. fold d. rewrite contents_win by done. rewrite take_take.
          rewrite skipn_firstn_comm. f_equal. lia.
        + intros s' [= <-]. split; [done|]. split; [done|]. auto.
        + done.
      - replace (_ && _ && _)%bool with false by lia. apply (good_pure _ (RSlice nil_slice)).
        + cbn [v_exec]. unfold SliceCut, bind, get_d, ret. rewrite Len_eq. cbv beta iota. fold d. by replace (_ || _ || _)%bool with true by lia.
        + done.
        + intros s' [= <-]. split; [done|]. split; [done|]. auto.
        + done.
    Qed.
    Lemma Cut_gen i j : good_range i j l = true -> exists s w', Cut zero growth v i j w = Ok (s, w') /\
      contents w' s = cut_shown (Z.to_nat i) (Z.to_nat j) l /\ vseq w' v = take (Z.to_nat i) l ++ drop (Z.to_nat j) l /\
      inv w' /\ frame w v w' /\ w_vn w' = w_vn w /\ wf w' s /\ s_arr s = s_arr d.
    Proof.
      unfold good_range. rewrite len_l. intros H. pose proof (wf_len_cap _ _ Hd) as Hlc.
      destruct (reslice_ok w d i j Hd ltac:(lia) ltac:(lia)) as (s&E&Hs&Ea&Els&Ecs&Ews&Hc&Eos).
      destruct (shorten w d (Z.to_nat i) Hd ltac:(lia)) as (a&E1&S1&C1&Ea1&Hwa&Ela&Ewa&Eca&Eoa). rewrite Z2Nat.id in E1 by lia.
      destruct (reslice_ok w d j (Z.of_nat (s_len d)) Hd ltac:(lia) ltac:(lia)) as (b&E2&Hb&Eab&Elb&_&_&Hcb&_).
      destruct (append_spec zero growth w a (contents w b) Hwa) as (s3&w3&E3&S3&C3&L3&P3).
      pose proof (contents_length w b Hb) as Hlb.
      destruct P3 as (Pa&Pc&Po&Pw); [lia|].
      assert (S3' : sl_step w d w3 s3) by (eapply sl_same; [|exact S3]; done).
      destruct (set_ok w v w3 s3 Hi Hv S3') as (w4&E4&I4&F4&Q4&N4&Na4&Narr).
      assert (EB : contents w b = drop (Z.to_nat j) l).
      { rewrite Hcb. unfold l, vseq. fold d. rewrite contents_win by done. rewrite skipn_firstn_comm. f_equal. lia. }
      exists s, w4. split; [|split; [|split; [|split; [done|split; [done|split; [done|split; [|done]]]]]]].
      - unfold Cut. unfold bind at 1. rewrite Len_eq. fold d. replace (_ || _ || _)%bool with false by lia.
        unfold bind at 1, get_d. fold d. unfold bind at 1. rewrite E. unfold bind at 1. rewrite E1.
        unfold bind at 1, reslice_from. rewrite E2. unfold bind at 1, read. unfold bind at 1. rewrite E3. unfold bind. rewrite E4. done.
      - assert (HW : win w4 s = drop (Z.to_nat i) (win w3 a)).
        { unfold win. rewrite Ea, Ea1, Ecs, Eos, Eca, Eoa. destruct (s_arr d); [|by rewrite drop_nil]. rewrite Narr.
          rewrite <- drop_drop. by rewrite skipn_firstn_comm. }
        rewrite contents_win by lia. rewrite HW, Pw, Els. unfold cut_shown. rewrite Ewa, Ela.
        unfold splice. rewrite drop_app_alt by (rewrite take_length, win_length by done; lia).
        rewrite EB, drop_length, len_l. unfold l, vseq. fold d. rewrite contents_win by done.
        rewrite Z2Nat.inj_sub by lia. apply list_eq. intros k.
        destruct (decide (k < Z.to_nat j - Z.to_nat i)) as [Hk|Hk].
        2: { rewrite !lookup_ge_None_2; [done| |]; rewrite take_length; lia. }
        rewrite !lookup_take by done.
        destruct (decide (k < s_len d - Z.to_nat j)).
        + rewrite !lookup_app_l by (rewrite drop_length, take_length, win_length by done; lia). done.
        + rewrite !lookup_app_r by (rewrite drop_length, take_length, win_length by done; lia).
          rewrite !lookup_drop, drop_length, take_length, win_length by done. rewrite lookup_take by lia. done.
      - rewrite Q4, C3, C1, EB. done.
      - eapply wf_step; [| |exact Hs].
        + intros x Hx. rewrite Narr. by apply (ss_len _ _ _ _ S3').
        + rewrite Na4. apply S3'.
    Qed.
    Lemma Cut_ok i j : good w v (VCut i j) (ASeq (if good_range i j l then cut_shown (Z.to_nat i) (Z.to_nat j) l else []))
      (if good_range i j l then take (Z.to_nat i) l ++ drop (Z.to_nat j) l else l).
    Proof.
      destruct (good_range i j l) eqn:G.
      - destruct (Cut_gen i j G) as (s&w'&E&C&Q&I&F&N&Hwf&Ha). exists (RSlice s), w'.
        split; [cbn; unfold bind; by rewrite E|]. split; [done|]. split; [done|]. split; [done|]. split; [done|]. split; [|done].
        intros s' [= <-]. split; [done|]. split; [auto|done].
      - unfold good_range in G. rewrite len_l in G. apply (good_pure _ (RSlice nil_slice)).
        + cbn [v_exec]. unfold Cut, bind, get_d, ret. rewrite Len_eq. cbv beta iota. fold d. by replace (_ || _ || _)%bool with true by lia.
        + done.
        + intros s' [= <-]. split; [done|]. split; [done|]. auto.
        + done.
    Qed.
    Lemma compact_pure (eq : T -> T -> bool) : forall (xs : list T) x, compact (pure_cmp eq) x xs = Ok (dedup eq x xs).
    Proof. induction xs as [|y xs IH]; intros x; cbn; [done|]. rewrite IH. cbn. by destruct (eq y x). Qed.
    Lemma dedup_length eq : forall (xs : list T) (x : T), length (dedup eq x xs) <= length xs.
    Proof. induction xs as [|y xs IH]; intros x; cbn; [lia|]. specialize (IH y). destruct (eq y x); cbn; lia. Qed.
    Lemma Compact_ok eq : good w v (VCompactFunc eq) AUnit (compacted eq l).
    Proof.
      unfold compacted. pose proof len_l as HL. destruct l as [|x xs] eqn:El.
      - assert (Hc : contents w d = []) by exact El.
        rewrite <- Hc. apply (good_set (ret tt) _ w d _ RUnit); [by apply sl_refl| |done|done].
        intros w' E'. split; [|done]. cbn [v_exec]. unfold CompactFunc, bind, get_d, s_Compact. fold d. rewrite Hc, E'. done.
      - assert (Hc : contents w d = x :: xs) by exact El.
        pose proof (dedup_length eq xs x) as Hdl. pose proof (wf_len_cap _ _ Hd) as Hlc. cbn in HL.
        set (r := dedup eq x xs) in *.
        destruct (write_slice w d 0 ((x :: r) ++ replicate (s_len d - S (length r)) zero) (S (length r)) Hd) as (w1&E&S1&C1&_).
        { cbn. rewrite app_length, replicate_length. lia. } { lia. }
        assert (C1' : contents w1 (mk_slice (s_arr d) (s_off d) (S (length r)) (s_cap d)) = x :: r).
        { rewrite C1. unfold splice. rewrite take_0. cbn [app]. rewrite <- app_assoc. cbn [app].
          change (x :: r ++ replicate (s_len d - S (length r)) zero ++ drop _ (win w d)) with ((x :: r) ++ replicate (s_len d - S (length r)) zero ++ drop (0 + length (x :: r ++ replicate (s_len d - S (length r)) zero)) (win w d)).
          by rewrite take_app_alt. }
        rewrite <- C1'. apply (good_set (ret tt) _ w1 (mk_slice (s_arr d) (s_off d) (S (length r)) (s_cap d)) _ RUnit); [done| |done|done].
        intros w' E'. split; [|done]. cbn [v_exec]. unfold CompactFunc, bind, get_d, s_Compact. fold d.
        rewrite Hc, compact_pure. fold r. unfold bind. rewrite E. unfold ret. rewrite E'. done.
    Qed.
    Lemma Grow_ok n : (0 <= n)%Z -> good w v (VGrow n) AUnit l.
    Proof.
      intros Hn. destruct (grow_spec zero growth w d n Hd Hn) as (s1&w1&E1&S1&C1&_). change l with (contents w d). rewrite <- C1.
      apply (good_set (ret tt) _ w1 s1 _ RUnit); [done| |done|done]. intros w' E'. split; [|done].
      cbn [v_exec]. unfold Grow, bind, get_d. fold d. by rewrite E1, E'.
    Qed.
    Lemma Grow_panic n : (n < 0)%Z -> exec v (VGrow n) w = Panic.
    Proof. intros Hn. cbn [v_exec]. unfold Grow, bind, get_d, s_Grow. by replace (n <? 0)%Z with true by lia. Qed.
    Lemma Clip_ok : good w v VClip AUnit l.
    Proof.
      assert (Hc : contents w (s_Clip d) = l) by done. rewrite <- Hc.
      apply (good_set (ret tt) _ w (s_Clip d) _ RUnit); [| |done|done].
      - constructor; auto. pose proof Hd as Hd2. clear Hc. unfold wf, s_Clip in *. cbn. clear Hd. destruct (s_arr d); lia.
      - intros w' E'. split; [|done]. cbn [v_exec]. unfold Clip, bind, get_d. fold d. by rewrite E'.
    Qed.
    Lemma SetLess_ok f : good w v (VSetLess f) AUnit l.
    Proof.
      eexists RUnit, _. split; [reflexivity|]. split; [done|].
      match goal with |- vseq ?w' v = _ /\ _ => destruct (step_ok w v w d w' Hi Hv (sl_refl _ _ Hd)) as (?&?&?); try done end.
      - cbn. by rewrite fn_lookup_insert.
      - intros x Hx. cbn. by rewrite fn_lookup_insert_ne.
      - cbn. rewrite fn_lookup_insert. cbn. by destruct f.
      - cbn. rewrite fn_lookup_insert. cbn. intros u; by apply (i_equal _ Hi v u Hv).
    Qed.
    Lemma SetEqual_ok f : good w v (VSetEqual f) AUnit l.
    Proof.
      eexists RUnit, _. split; [reflexivity|]. split; [done|].
      match goal with |- vseq ?w' v = _ /\ _ => destruct (step_ok w v w d w' Hi Hv (sl_refl _ _ Hd)) as (?&?&?); try done end.
      - cbn. by rewrite fn_lookup_insert.
      - intros x Hx. cbn. by rewrite fn_lookup_insert_ne.
      - cbn. rewrite fn_lookup_insert. cbn. intros u; by apply (i_less _ Hi v u Hv).
      - cbn. rewrite fn_lookup_insert. cbn. by destruct f.
    Qed.
    Lemma CloneToSlice_ok : good w v VCloneToSlice (ASeq l) l.
    Proof.
      destruct (clone_spec zero growth w d Hd) as (s'&w'&E&C&Hwf&Han&Hvec&Hvn&Harr&Ha).
      assert (HQ : forall x, x < w_vn w -> vseq w' x = vseq w x).
      { intros x Hx. unfold vseq. rewrite Hvec. unfold contents. pose proof (i_wf _ Hi x Hx) as Hx'. unfold wf in Hx'.
        destruct (s_arr (d_of w x)); [|done]. rewrite Harr by lia. done. }
      exists (RSlice s'), w'. split; [cbn; unfold CloneToSlice, bind, get_d; fold d; by rewrite E|]. split; [done|].
      split; [by apply HQ|]. split; [|split; [|split; [|done]]].
      - constructor; rewrite Hvn, ?Hvec; try apply Hi. intros x Hx. eapply wf_step; [| |by apply (i_wf _ Hi)].
        + intros a Ha'. by rewrite Harr.
        + done.
      - constructor; try lia.
        + intros. by rewrite Hvec.
        + intros. by apply Harr.
        + intros. by rewrite Harr.
        + rewrite Hvec. auto.
      - intros s [= <-]. split; [done|]. split; [done|]. intros _. destruct Ha as [?|[? ?]]; auto 7.
    Qed.
  End call.

  (** Clone and SplitOff *)
  Lemma Clone_ok w v : inv w -> v < w_vn w -> good w v VClone (ASeq (vseq w v)) (vseq w v).
  Proof.
    intros Hi Hv. destruct (New_ok w (Some (CMethod v)) (Some (CMethod v)) Hi) as (w1&E1&I1&Q1&N1&F1&Ha1&Han1&Hv1&_); [naive_solver..|].
    assert (Hd : wf w1 (d_of w1 v)) by (apply I1; lia).
    destruct (Push_gen w1 (w_vn w) I1 ltac:(lia) (vseq w v)) as (w2&E2&Q2&I2&F2&N2).
    assert (Q1v : vseq w1 v = vseq w v). { unfold vseq. rewrite Hv1 by done. unfold contents. by rewrite Ha1. }
    exists (RVec (w_vn w)), w2. split.
    { cbn [v_exec]. unfold Clone. unfold bind at 1, bind at 1. rewrite E1. unfold bind at 1, get_d. unfold bind at 1, read.
      fold (vseq w1 v). rewrite Q1v. unfold bind. rewrite E2. done. }
    split. { cbn. rewrite Q2, Q1. done. }
    split. { rewrite (frame_other w1 (w_vn w) w2 v); [done|done|lia|done|lia|lia]. }
    split; [done|]. split; [eapply frame_trans_new; eauto; lia|]. split; [done|]. split; [done|lia].
  Qed.
  Lemma SplitOff_ok w v i : inv w -> v < w_vn w ->
    good w v (VSplitOff i) (ASeq (if good_range i (Z.of_nat (length (vseq w v))) (vseq w v) then drop (Z.to_nat i) (vseq w v) else []))
      (if good_range i (Z.of_nat (length (vseq w v))) (vseq w v) then take (Z.to_nat i) (vseq w v) else vseq w v).
  Proof.
    intros Hi Hv. destruct (New_ok w (Some (CMethod v)) (Some (CMethod v)) Hi) as (w1&E1&I1&Q1&N1&F1&Ha1&Han1&Hv1&_); [naive_solver..|].
    assert (Q1v : vseq w1 v = vseq w v). { unfold vseq. rewrite Hv1 by done. unfold contents. by rewrite Ha1. }
    assert (HL : length (vseq w v) = s_len (d_of w1 v)). { rewrite <- Q1v. apply contents_length. apply I1. lia. }
    assert (exists s w2 vs, Cut zero growth v i (Z.of_nat (s_len (d_of w1 v))) w1 = Ok (s, w2) /\ contents w2 s = vs /\
      vs = (if good_range i (Z.of_nat (length (vseq w v))) (vseq w v) then drop (Z.to_nat i) (vseq w v) else []) /\
      vseq w2 v = (if good_range i (Z.of_nat (length (vseq w v))) (vseq w v) then take (Z.to_nat i) (vseq w v) else vseq w v) /\
      inv w2 /\ frame w1 v w2 /\ w_vn w2 = w_vn w1) as (s&w2&vs&E2&C2&Evs&Q2&I2&F2&N2).
    { destruct (good_range i (Z.of_nat (length (vseq w v))) (vseq w v)) eqn:G.
      - destruct (Cut_gen w1 v I1 ltac:(lia) i (Z.of_nat (length (vseq w v)))) as (s&w2&E&C&Q&I&F&N&_); [by rewrite Q1v|].
        exists s, w2, (contents w2 s). rewrite <- HL. split; [done|]. split; [done|]. rewrite C, Q, Q1v. rewrite Nat2Z.id.
        unfold good_range in G. rewrite (drop_ge _ (length _)) by lia. rewrite app_nil_r. split; [|auto].
        unfold cut_shown. rewrite drop_ge by lia. cbn. replace (Z.to_nat i + (length (vseq w v) - length (vseq w v))) with (Z.to_nat i) by lia.
        rewrite take_ge; [done|]. rewrite drop_length. lia.
      - exists nil_slice, w1, []. split.
        { unfold Cut, bind. rewrite Len_eq. rewrite <- HL. unfold good_range in G. by replace (_ || _ || _)%bool with true by lia. }
        split; [done|]. split; [done|]. split; [done|]. split; [done|]. split; [apply frame_refl; [done|lia]|done]. }
    assert (Hu : vseq w2 (w_vn w) = []). { rewrite (frame_other w1 v w2); [done|done|lia|done|lia|lia]. }
    destruct (Push_gen w2 (w_vn w) I2 ltac:(lia) vs) as (w3&E3&Q3&I3&F3&N3).
    exists (RVec (w_vn w)), w3. split.
    { cbn [v_exec]. unfold SplitOff. unfold bind at 1, bind at 1. rewrite E1. unfold bind at 1. rewrite Len_eq. unfold bind at 1. rewrite E2.
      unfold bind at 1, read. rewrite C2. unfold bind. rewrite E3. done. }
    split. { cbn. rewrite Q3, Hu, <- Evs. done. }
    split. { rewrite (frame_other w2 (w_vn w) w3 v); [done|done|lia|done|lia|lia]. }
    split; [done|]. split.
    { eapply (frame_trans_new w v w2); [|exact F3|done|lia|done]. eapply frame_trans_same; [by apply F1|done|done]. }
    split; [done|]. split; [done|lia].
  Qed.

  (** * Every call *)
  Definition v_does w v c : Prop :=
    match v_spec zero srt srt_stable (cmp_equal auto_equal (S v) w v) c (vseq w v) with
    | Some (a, l') => good w v c a l'
    | None => exec v c w = Panic
    end.
  Lemma v_step w v c : (forall f l, srt f l ≡ₚ l) -> (forall f l, srt_stable f l ≡ₚ l) -> inv w -> v < w_vn w -> v_does w v c.
  Proof.
    intros Hs1 Hs2 Hi Hv. unfold v_does. destruct c; cbn [v_spec].
    - by apply VLen_ok.
    - by apply Push_ok.
    - by apply Pop_ok.
    - by apply Remove_ok.
    - by apply Get_ok.
    - by apply Set_ok.
    - by apply Clear_ok.
    - by apply First_ok.
    - by apply Last_ok.
    - by apply Swap_ok.
    - destruct (good_range i i (vseq w v)) eqn:G.
      + apply (Replace_gen w v Hi Hv _ i i vs G); [done|]. intros. done.
      + cbn [v_exec]. unfold bind. change (Insert zero growth v i vs w) with (Replace zero growth v i i vs w).
        rewrite (Replace_panic w v Hi Hv); done.
    - destruct (good_range i j (vseq w v)) eqn:G.
      + apply (Replace_gen w v Hi Hv _ i j [] G); [done|]. intros. done.
      + cbn [v_exec]. unfold bind. change (Delete zero growth v i j w) with (Replace zero growth v i j [] w).
        rewrite (Replace_panic w v Hi Hv); done.
    - destruct (good_range i j (vseq w v)) eqn:G.
      + apply (Replace_gen w v Hi Hv _ i j vs G); [done|]. intros. done.
      + cbn [v_exec]. unfold bind. rewrite (Replace_panic w v Hi Hv); done.
    - by apply Reverse_ok.
    - pose proof (Cut_ok w v Hi Hv i j) as H. by destruct (good_range i j (vseq w v)).
    - by apply Slice_ok.
    - by apply SliceCut_ok.
    - pose proof (SplitOff_ok w v i Hi Hv) as H. by destruct (good_range _ _ _).
    - by apply Clone_ok.
    - by apply CloneToSlice_ok.
    - by apply Compact_ok.
    - fold (v_spec zero srt srt_stable (cmp_equal auto_equal (S v) w v) (VConpareAndRemove i x) (vseq w v)).
      match goal with |- match ?e with _ => _ end => destruct e as [[a l']|] eqn:E end.
      + by apply CAR_ok.
      + by apply CAR_panic.
    - destruct (Z.leb_spec 0 n); [by apply Grow_ok|by apply Grow_panic].
    - by apply Clip_ok.
    - by apply SetLess_ok.
    - by apply SetEqual_ok.
    - by apply Sort_ok.
    - by apply SortStable_ok.
  Qed.
End steps.
