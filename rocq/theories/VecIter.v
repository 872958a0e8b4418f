From Coq Require Import ZifyBool ZifyNat.
From Verif Require Import Base VecModel VecSpec VecProofs VecSteps VecHistory VecQuery VecIterSpec.

Lemma evens_odds {T} (l : list T) : evens l ++ odds l ≡ₚ l.
Proof.
  assert (forall k (l : list T), length l <= k -> evens l ++ odds l ≡ₚ l) as H; [|by apply (H (length l))].
  induction k as [|k IH]; intros l' Hk; [destruct l'; [done|cbn in Hk; lia]|]. destruct l' as [|x [|y l']]; [done|done|].
  cbn. constructor. rewrite <- Permutation_middle. constructor. apply IH. cbn in Hk. lia.
Qed.

Section proofs.
  Context {T : Type} (zero : T) (growth : nat -> nat -> nat -> nat).
  Context (auto_equal : option (T -> T -> bool)).
  Context (srt srt_stable : (T -> T -> Z) -> list T -> list T).
  Context (Hsrt : forall f l, srt f l ≡ₚ l) (Hsrt2 : forall f l, srt_stable f l ≡ₚ l).
  Notation W := (vworld T).
  Notation steps := (o_steps zero growth auto_equal srt srt_stable).
  Notation exec := (v_exec zero growth auto_equal srt srt_stable).
  Notation reached := (v_reached zero growth auto_equal srt srt_stable).
  Notation v_callback := (v_callback zero growth auto_equal srt srt_stable).
  Implicit Types (w : W) (v : nat) (l : list T).

  Lemma loop_eq {B} (f : Z -> T -> B -> M W (bool * B)) fuel v i b w : inv w -> v < w_vn w ->
    range_loop fuel v f (Z.of_nat i) b w =
    match vseq w v !! i with
    | None => Ok (b, w)
    | Some x => match fuel with
      | O => NoFuel
      | Datatypes.S fuel => match f (Z.of_nat i) x b w with
        | Ok ((true, b1), w1) => range_loop fuel v f (Z.of_nat (Datatypes.S i)) b1 w1
        | Ok ((false, b1), w1) => Ok (b1, w1)
        | Panic => Panic | NoFuel => NoFuel end end end.
  Proof.
    intros Hi Hv. pose proof (len_l w v Hi Hv) as HL.
    destruct (vseq w v !! i) as [x|] eqn:Ex.
    - pose proof (lookup_lt_Some _ _ _ Ex) as Hlt. destruct fuel as [|fuel]; cbn [range_loop]; unfold bind at 1; rewrite Len_eq, <- HL.
      + replace (Z.of_nat i <? _)%Z with true by lia. done.
      + replace (Z.of_nat i <? _)%Z with true by lia. unfold bind at 1, get_d. unfold bind at 1, idx.
        destruct (getZ_in w (v_d (w_vec w v)) (Z.of_nat i)) as (y&E1&E2); [by apply Hi|lia|]. rewrite E1. unfold bind, ret.
        change (contents w (v_d (w_vec w v))) with (vseq w v) in E2. rewrite Nat2Z.id in E2.
        assert (y = x) as -> by congruence.
        destruct (f (Z.of_nat i) x b w) as [[[[] b1] w1]| |]; cbn [fst snd]; [|done|done|done]. by rewrite Nat2Z.inj_succ.
    - apply lookup_ge_None in Ex. destruct fuel as [|fuel]; cbn [range_loop]; unfold bind at 1; rewrite Len_eq, <- HL;
        replace (Z.of_nat i <? _)%Z with false by lia; done.
  Qed.
  Lemma steps_vn st os st' : reached st -> steps st os st' -> w_vn (fst st) <= w_vn (fst st').
  Proof.
    intros Hr H. destruct (reached_owned _ _ _ _ _ Hsrt Hsrt2 _ Hr) as [ow Ho]. clear Hr. revert ow Ho.
    induction H as [|st o st1 os st2 H1 H2 IH]; intros ow Ho; [done|].
    destruct (owned_step _ _ _ _ _ Hsrt Hsrt2 _ _ _ _ Ho H1) as (ow1&Ho1&_&_&Hn&_). specialize (IH ow1 Ho1). lia.
  Qed.
  Lemma steps_app st os1 st1 os2 st2 : steps st os1 st1 -> steps st1 os2 st2 -> steps st (os1 ++ os2) st2.
  Proof. induction 1 as [|st o st1 os st3 H1 H2 IH]; intros H; [done|]. econstructor; eauto. Qed.

  Section with_callback.
    Context {B : Type} (f : Z -> T -> B -> M W (bool * B)) (n : nat) (Hf : v_callback n f) (v : nat) (Hvn : v < n).
    Lemma callback_inv i x b w hs r w' : reached (w, hs) -> n <= w_vn w -> f i x b w = Ok (r, w') ->
      exists os hs', steps (w, hs) os (w', hs') /\ reached (w', hs') /\ n <= w_vn w'.
    Proof.
      intros Hr Hv E. destruct (Hf _ _ _ _ _ _ _ Hr Hv E) as (os&hs'&Hst). exists os, hs'. split; [done|].
      split; [by eapply reached_steps|]. pose proof (steps_vn _ _ _ Hr Hst). cbn [fst] in *. lia.
    Qed.
    Lemma Range_turns : forall fuel i b w hs b' w', reached (w, hs) -> n <= w_vn w ->
      range_loop fuel v f (Z.of_nat i) b w = Ok (b', w') ->
      (exists ts, turns v f w i b ts b' w' /\ length ts <= fuel) /\ exists os hs', steps (w, hs) os (w', hs').
    Proof.
      induction fuel as [|fuel IH]; intros i b w hs b' w' Hr Hv;
        rewrite loop_eq by (first [exact (reached_inv _ _ _ _ _ Hsrt Hsrt2 _ Hr)|lia]);
        destruct (vseq w v !! i) as [x|] eqn:Ex.
      - done.
      - intros [= <- <-]. split; [|exists [], hs; constructor]. exists []. split; [|done]. constructor. by apply lookup_ge_None.
      - destruct (f (Z.of_nat i) x b w) as [[[[] b1] w1]| |] eqn:Ef; [| |done|done].
        + intros E. destruct (callback_inv _ _ _ _ _ _ _ Hr Hv Ef) as (os&hs1&Hst&Hr1&Hv1).
          destruct (IH _ _ _ _ _ _ Hr1 Hv1 E) as [(ts&Hts&Hl) (os2&hs2&Hst2)]. split.
          * eexists. split; [by eapply vt_go|]. cbn. lia.
          * eexists _, _. eapply steps_app; eauto.
        + intros [= <- <-]. destruct (callback_inv _ _ _ _ _ _ _ Hr Hv Ef) as (os&hs1&Hst&Hr1&Hv1). split; [|eauto].
          eexists. split; [by eapply vt_stop|]. cbn. lia.
      - intros [= <- <-]. split; [|exists [], hs; constructor]. exists []. split; [|cbn; lia]. constructor. by apply lookup_ge_None.
    Qed.
    Lemma turns_Range w i b ts b' w' : turns v f w i b ts b' w' -> forall hs fuel, reached (w, hs) -> n <= w_vn w -> length ts <= fuel ->
      range_loop fuel v f (Z.of_nat i) b w = Ok (b', w').
    Proof.
      induction 1 as [w i b Hl|w i x b b' w' Hx Ef|w i x b b1 w1 ts b2 w2 Hx Ef Ht IH]; intros hs fuel Hr Hv Hn;
        rewrite loop_eq by (first [exact (reached_inv _ _ _ _ _ Hsrt Hsrt2 _ Hr)|lia]).
      - by rewrite lookup_ge_None_2.
      - rewrite Hx. destruct fuel as [|fuel]; [cbn in Hn; lia|]. by rewrite Ef.
      - rewrite Hx. destruct fuel as [|fuel]; [cbn in Hn; lia|]. rewrite Ef.
        destruct (callback_inv _ _ _ _ _ _ _ Hr Hv Ef) as (os&hs1&Hst&Hr1&Hv1). eapply IH; [exact Hr1|done|cbn in Hn; lia].
    Qed.
    Lemma Range_no_panic : (forall i x b w hs, reached (w, hs) -> n <= w_vn w -> f i x b w <> Panic) ->
      forall fuel i b w hs, reached (w, hs) -> n <= w_vn w -> range_loop fuel v f (Z.of_nat i) b w <> Panic.
    Proof.
      intros Hp. induction fuel as [|fuel IH]; intros i b w hs Hr Hv;
        rewrite loop_eq by (first [exact (reached_inv _ _ _ _ _ Hsrt Hsrt2 _ Hr)|lia]);
        destruct (vseq w v !! i) as [x|] eqn:Ex; [done|done| |done].
      destruct (f (Z.of_nat i) x b w) as [[[[] b1] w1]| |] eqn:Ef; [|done| |done].
      - destruct (callback_inv _ _ _ _ _ _ _ Hr Hv Ef) as (os&hs1&Hst&Hr1&Hv1). by apply (IH _ _ _ hs1).
      - by destruct (Hp (Z.of_nat i) x b w hs).
    Qed.
    Lemma Range_ends N : (forall i x b w hs, reached (w, hs) -> n <= w_vn w -> exists r w', f i x b w = Ok (r, w')) ->
      (forall i x b w hs r w', reached (w, hs) -> n <= w_vn w -> length (vseq w v) <= N -> f i x b w = Ok (r, w') -> length (vseq w' v) <= N) ->
      forall fuel i b w hs, reached (w, hs) -> n <= w_vn w -> length (vseq w v) <= N -> N - i <= fuel ->
      exists b' w', range_loop fuel v f (Z.of_nat i) b w = Ok (b', w').
    Proof.
      intros Hd Hn. induction fuel as [|fuel IH]; intros i b w hs Hr Hv Hl Hfu;
        rewrite loop_eq by (first [exact (reached_inv _ _ _ _ _ Hsrt Hsrt2 _ Hr)|lia]);
        destruct (vseq w v !! i) as [x|] eqn:Ex; [|eauto| |eauto].
      - apply lookup_lt_Some in Ex. lia.
      - destruct (Hd (Z.of_nat i) x b w hs Hr Hv) as ([[] b1]&w1&Ef); rewrite Ef; [|eauto].
        destruct (callback_inv _ _ _ _ _ _ _ Hr Hv Ef) as (os&hs1&Hst&Hr1&Hv1). apply (IH _ _ _ hs1); [done|done|eauto|lia].
    Qed.
  End with_callback.

  Lemma turns_indices {B} (f : Z -> T -> B -> M W (bool * B)) v w i b ts b' w' : turns v f w i b ts b' w' ->
    t_index <$> ts = seq i (length ts) /\ (forall c, c ∈ ts -> vseq (t_before c) v !! t_index c = Some (t_elem c)).
  Proof.
    induction 1 as [w i b Hl|w i x b b' w' Hx Ef|w i x b b1 w1 ts b2 w2 Hx Ef Ht IH].
    - split; [done|]. intros c Hc. by apply elem_of_nil in Hc.
    - split; [done|]. intros c Hc. apply elem_of_list_singleton in Hc as ->. done.
    - destruct IH as [IH1 IH2]. split; [cbn; by rewrite IH1|]. intros c [->|Hc]%elem_of_cons; [done|eauto].
  Qed.
  Lemma turns_prefix {B} (f : Z -> T -> B -> M W (bool * B)) v w i b ts b' w' : turns v f w i b ts b' w' ->
    (forall c, c ∈ ts -> drop (Datatypes.S (t_index c)) (vseq (t_after c) v) = drop (Datatypes.S (t_index c)) (vseq (t_before c) v)) ->
    (t_elem <$> ts) `prefix_of` drop i (vseq w v) /\ ((forall c, c ∈ ts -> t_more c = true) -> t_elem <$> ts = drop i (vseq w v)).
  Proof.
    induction 1 as [w i b Hl|w i x b b' w' Hx Ef|w i x b b1 w1 ts b2 w2 Hx Ef Ht IH]; intros Hc.
    - rewrite drop_ge by done. done.
    - split; [|intros H; by specialize (H _ (elem_of_list_here _ _))]. rewrite (drop_S _ _ _ Hx). cbn. by apply prefix_cons, prefix_nil.
    - assert (Hd : drop (Datatypes.S i) (vseq w1 v) = drop (Datatypes.S i) (vseq w v)) by exact (Hc _ (elem_of_list_here _ _)).
      destruct IH as [IH1 IH2]; [intros c Hc'; apply Hc; by right|].
      rewrite (drop_S _ _ _ Hx), <- Hd. split; [by apply prefix_cons|]. intros H. cbn. f_equal. apply IH2. intros c Hc'. apply H. by right.
  Qed.

  (** ** The callback removes what it is given *)
  Lemma reached_call w hs v c a l' : reached (w, hs) -> v < w_vn w ->
    v_spec zero srt srt_stable (cmp_equal auto_equal (Datatypes.S v) w v) c (vseq w v) = Some (a, l') ->
    exists r w' hs', exec v c w = Ok (r, w') /\ vseq w' v = l' /\ reached (w', hs') /\ v < w_vn w'.
  Proof.
    intros Hr Hv E. pose proof (reached_inv _ _ _ _ _ Hsrt Hsrt2 _ Hr) as Hi.
    pose proof (v_step zero growth auto_equal srt srt_stable w v c Hsrt Hsrt2 Hi Hv) as H. unfold v_does in H. rewrite E in H.
    destruct H as (r&w'&E'&Ha&Hs&I&F&_).
    assert (Hst : steps (w, hs) [OCall v c] (w', hs ++ handed v c r)) by (econstructor; [by constructor|constructor]).
    exists r, w', (hs ++ handed v c r). split; [done|]. split; [done|]. split; [by eapply reached_steps|].
    pose proof (steps_vn _ _ _ Hr Hst). cbn [fst] in *. lia.
  Qed.
  Lemma Remove_in w hs v i x : reached (w, hs) -> v < w_vn w -> vseq w v !! i = Some x ->
    exists w' hs', (forall b, remove_current zero v (Z.of_nat i) x b w = Ok ((true, b ++ [x]), w')) /\
      vseq w' v = delete i (vseq w v) /\ reached (w', hs') /\ v < w_vn w'.
  Proof.
    intros Hr Hv Hx. pose proof (lookup_lt_Some _ _ _ Hx) as Hlt.
    destruct (reached_call w hs v (VRemove (Z.of_nat i)) _ _ Hr Hv eq_refl) as (r&w'&hs'&E&Hs&Hr'&Hv').
    exists w', hs'. split; [|split; [|done]].
    - intros b. cbn [v_exec] in E. unfold remove_current. unfold bind in E |- *.
      destruct (Remove zero v (Z.of_nat i) w) as [[p w1]| |]; [|done|done]. unfold ret in *. by injection E as _ ->.
    - rewrite Hs. unfold removed, in_range. replace ((0 <=? Z.of_nat i)%Z && _) with true by lia. by rewrite Nat2Z.id.
  Qed.
  Lemma remove_loop v : forall k fuel l1 l2 b w hs, reached (w, hs) -> v < w_vn w -> length l2 <= k -> length l2 <= fuel -> vseq w v = l1 ++ l2 ->
    exists w', range_loop fuel v (remove_current zero v) (Z.of_nat (length l1)) b w = Ok (b ++ evens l2, w') /\ vseq w' v = l1 ++ odds l2.
  Proof.
    induction k as [|k IH]; intros fuel l1 l2 b w hs Hr Hv Hk Hfu Hs;
      (assert (Hi : inv w) by exact (reached_inv _ _ _ _ _ Hsrt Hsrt2 _ Hr)).
    { destruct l2; [|cbn in Hk; lia]. rewrite loop_eq by done. rewrite lookup_ge_None_2 by (rewrite Hs, app_nil_r; done).
      exists w. by rewrite app_nil_r. }
    destruct l2 as [|x l2].
    { rewrite loop_eq by done. rewrite lookup_ge_None_2 by (rewrite Hs, app_nil_r; done). exists w. by rewrite app_nil_r. }
    assert (Hx : vseq w v !! length l1 = Some x) by (rewrite Hs; by apply list_lookup_middle).
    destruct fuel as [|fuel]; [cbn in Hfu; lia|].
    destruct (Remove_in w hs v (length l1) x Hr Hv Hx) as (w1&hs1&E1&Hs1&Hr1&Hv1).
    assert (Hs2 : vseq w1 v = l1 ++ l2) by (rewrite Hs1, Hs; by apply delete_middle).
    rewrite loop_eq, Hx, E1 by done.
    destruct l2 as [|y l2].
    - rewrite loop_eq by (try done; exact (reached_inv _ _ _ _ _ Hsrt Hsrt2 _ Hr1)).
      rewrite lookup_ge_None_2 by (rewrite Hs2, app_nil_r; lia). exists w1. cbn. by rewrite Hs2.
    - destruct (IH fuel (l1 ++ [y]) l2 (b ++ [x]) w1 hs1 Hr1 Hv1) as (w2&E2&H2); [cbn in Hk; lia|cbn in Hfu; lia|by rewrite Hs2, <- app_assoc|].
      rewrite app_length, Nat.add_1_r in E2. exists w2. rewrite E2, H2, <- !app_assoc. done.
  Qed.
  Lemma Range_Remove v fuel w hs : reached (w, hs) -> v < w_vn w -> length (vseq w v) <= fuel ->
    exists w', range_loop fuel v (remove_current zero v) 0 [] w = Ok (evens (vseq w v), w') /\ vseq w' v = odds (vseq w v).
  Proof. intros Hr Hv Hl. apply (remove_loop v (length (vseq w v)) fuel [] (vseq w v) [] w hs); done. Qed.
  (** ** The callback appends *)
  Lemma push_loop v : forall fuel i b w hs, reached (w, hs) -> v < w_vn w -> i < length (vseq w v) ->
    range_loop fuel v (push_current zero growth v) (Z.of_nat i) b w = NoFuel.
  Proof.
    induction fuel as [|fuel IH]; intros i b w hs Hr Hv Hl;
      (assert (Hi : inv w) by exact (reached_inv _ _ _ _ _ Hsrt Hsrt2 _ Hr)); rewrite loop_eq by done;
      (destruct (lookup_lt_is_Some_2 _ _ Hl) as [x Hx]); rewrite Hx; [done|].
    destruct (reached_call w hs v (VPush [x]) _ _ Hr Hv eq_refl) as (r&w'&hs'&E&Hs&Hr'&Hv').
    assert (E' : push_current zero growth v (Z.of_nat i) x b w = Ok ((true, Datatypes.S b), w')).
    { cbn [v_exec] in E. unfold push_current. unfold bind in E |- *.
      destruct (Push zero growth v [x] w) as [[p w1]| |]; [|done|done]. unfold ret in *. by injection E as _ ->. }
    rewrite E'. apply (IH _ _ _ hs'); [done|done|]. rewrite Hs, app_length. cbn. lia.
  Qed.

  (** Callbacks made of a call are of the kind asked for. *)
  Lemma callback_call {B} n (c : Z -> T -> B -> v_call T) (v : nat) (g : Z -> T -> B -> v_res T -> bool * B) : v < n ->
    v_callback n (fun i x b => r <- exec v (c i x b) ;; ret (g i x b r)).
  Proof.
    intros Hn i x b w hs r w' Hr Hv. unfold bind.
    destruct (exec v (c i x b) w) as [[r1 w1]| |] eqn:E; [|done|done]. intros [= _ <-].
    eexists _, _. eapply oss_cons; [apply (os_call _ _ _ _ _ w hs v (c i x b)); [lia|exact E]|constructor].
  Qed.
  Lemma remove_callback n v : v < n -> v_callback n (remove_current zero v).
  Proof.
    intros Hn i x b w hs r w' Hr Hv E. apply (callback_call n (fun i _ _ => VRemove i) v (fun _ x b _ => (true, b ++ [x])) Hn i x b w hs r w' Hr Hv).
    cbn [v_exec]. unfold remove_current in E. unfold bind in *. by destruct (Remove zero v i w) as [[p w1]| |].
  Qed.
  Lemma push_callback n v : v < n -> v_callback n (push_current zero growth v).
  Proof.
    intros Hn i x b w hs r w' Hr Hv E. apply (callback_call n (fun _ x _ => VPush [x]) v (fun _ _ b _ => (true, Datatypes.S b)) Hn i x b w hs r w' Hr Hv).
    cbn [v_exec]. unfold push_current in E. unfold bind in *. by destruct (Push zero growth v [x] w) as [[p w1]| |].
  Qed.
End proofs.
