(** Properties C37-C45 and C80-C82: vec *)
From Coq Require Import ZifyBool ZifyNat.
From Verif Require Import Base VecModel VecSpec VecProofs VecSteps VecHistory VecQuery VecExample.

Section properties.
  Context {T : Type} (zero : T) (growth : nat -> nat -> nat -> nat).
  Context (auto_less auto_equal : option (T -> T -> bool)).
  Context (srt srt_stable : (T -> T -> Z) -> list T -> list T).
  (** Sorting returns a permutation; nothing more is needed here. *)
  Context (Hsrt : forall f l, srt f l ≡ₚ l) (Hsrt2 : forall f l, srt_stable f l ≡ₚ l).
  Notation W := (vworld T).
  Notation step := (o_step zero growth auto_equal srt srt_stable).
  Notation steps := (o_steps zero growth auto_equal srt srt_stable).
  Notation exec := (v_exec zero growth auto_equal srt srt_stable).
  Notation reached := (v_reached zero growth auto_equal srt srt_stable).
  Notation avoids := (avoids zero growth auto_equal srt srt_stable).
  Notation less_of w v := (cmp_less auto_less (S v) w v).
  Notation equal_of w v := (cmp_equal auto_equal (S v) w v).
  Implicit Types (w : W) (st : state T) (v u : nat) (c : v_call T) (l : list T).

  Lemma step_call w hs v c r w' : v < w_vn w -> exec v c w = Ok (r, w') -> step (w, hs) (OCall v c) (w', hs ++ handed v c r).
  Proof. by constructor. Qed.

  (** ** C37 *)
  (** In every reachable state, a call answers and leaves what the sequence says; no other vector changes. *)
  Theorem C37_call st v c a l' : reached st -> v < w_vn (fst st) ->
    v_spec zero srt srt_stable (equal_of (fst st) v) c (vseq (fst st) v) = Some (a, l') ->
    exists r w', exec v c (fst st) = Ok (r, w') /\ answers w' r a /\ vseq w' v = l' /\
      (forall u, u < w_vn (fst st) -> u <> v -> vseq w' u = vseq (fst st) u) /\
      reached (w', snd st ++ handed v c r).
  Proof.
    intros Hr Hv E. pose proof (reached_inv _ _ _ _ _ Hsrt Hsrt2 _ Hr) as Hi.
    pose proof (v_step zero growth auto_equal srt srt_stable (fst st) v c Hsrt Hsrt2 Hi Hv) as H. unfold v_does in H. rewrite E in H.
    destruct H as (r&w'&E'&Ha&Hs&I&F&_). exists r, w'. split; [done|]. split; [done|]. split; [done|]. split.
    - intros u Hu Hne. by apply (frame_other (fst st) v w').
    - eapply reached_steps; [exact Hr|]. econstructor; [|constructor]. destruct st. by apply step_call.
  Qed.
  Theorem C37_call_panics st v c : reached st -> v < w_vn (fst st) ->
    v_spec zero srt srt_stable (equal_of (fst st) v) c (vseq (fst st) v) = None -> exec v c (fst st) = Panic.
  Proof.
    intros Hr Hv E. pose proof (reached_inv _ _ _ _ _ Hsrt Hsrt2 _ Hr) as Hi.
    pose proof (v_step zero growth auto_equal srt srt_stable (fst st) v c Hsrt Hsrt2 Hi Hv) as H. unfold v_does in H. by rewrite E in H.
  Qed.
  (** A new vector, whatever is done to others in between, answers as a sequence that starts empty. *)
  Theorem C37_history st less equal st1 cs rs st2 : reached st -> step st (ONew less equal) st1 ->
    v_trace zero growth auto_equal srt srt_stable (w_vn (fst st)) st1 cs rs st2 ->
    spec_run zero auto_equal srt srt_stable (match equal with Some f => Some f | None => auto_equal end) [] cs = Some (rs, vseq (fst st2) (w_vn (fst st))).
  Proof.
    intros Hr Hst Htr. destruct (reached_owned _ _ _ _ _ Hsrt Hsrt2 _ Hr) as [ow Ho].
    destruct (owned_step _ _ _ _ _ Hsrt Hsrt2 _ _ _ _ Ho Hst) as (ow1&Ho1&_).
    inversion Hst as [w hs less0 equal0 u w' E| |]; subst. cbn [fst snd] in *. unfold New in E. injection E as <- <-.
    pose proof (trace_ok _ _ _ _ _ Hsrt Hsrt2 _ _ _ _ _ Htr ow1 Ho1) as H. cbn in H.
    rewrite fn_lookup_insert in H. cbn in H. unfold vseq at 1 in H. cbn in H. rewrite fn_lookup_insert in H. cbn in H.
    rewrite <- H; [|lia|].
    - by destruct equal.
    - intros u. cbn. rewrite fn_lookup_insert. cbn. by destruct equal.
  Qed.

  (** ** C38: refuted below; what Cut returns: *)
  Theorem C38_Cut_exact st v i j : reached st -> v < w_vn (fst st) -> good_range i j (vseq (fst st) v) = true ->
    exists s w', Cut zero growth v i j (fst st) = Ok (s, w') /\
      contents w' s = cut_shown (Z.to_nat i) (Z.to_nat j) (vseq (fst st) v) /\
      vseq w' v = take (Z.to_nat i) (vseq (fst st) v) ++ drop (Z.to_nat j) (vseq (fst st) v).
  Proof.
    intros Hr Hv G. pose proof (reached_inv _ _ _ _ _ Hsrt Hsrt2 _ Hr) as Hi.
    destruct (Cut_gen zero growth srt srt_stable (fst st) v Hi Hv i j G) as (s&w'&E&C&Q&_). eauto.
  Qed.
  (** The k-th element of the returned slice. *)
  Theorem C38_Cut_element (l : list T) i j k : i <= j <= length l -> k < j - i ->
    cut_shown i j l !! k = if decide (j + k < length l) then l !! (j + k) else l !! (i + k).
  Proof.
    intros H Hk. unfold cut_shown. rewrite lookup_take by done. case_decide.
    - rewrite lookup_app_l by (rewrite drop_length; lia). by rewrite lookup_drop.
    - rewrite lookup_app_r by (rewrite drop_length; lia). rewrite drop_length, lookup_drop. f_equal. lia.
  Qed.
  (** Up to the end it does return the removed elements. *)
  Theorem C38_Cut_tail st v i : reached st -> v < w_vn (fst st) -> (0 <= i <= Z.of_nat (length (vseq (fst st) v)))%Z ->
    exists s w', Cut zero growth v i (Z.of_nat (length (vseq (fst st) v))) (fst st) = Ok (s, w') /\
      contents w' s = drop (Z.to_nat i) (vseq (fst st) v) /\ vseq w' v = take (Z.to_nat i) (vseq (fst st) v).
  Proof.
    intros Hr Hv H. destruct (C38_Cut_exact st v i (Z.of_nat (length (vseq (fst st) v))) Hr Hv) as (s&w'&E&C&Q).
    { unfold good_range. lia. }
    exists s, w'. split; [done|]. rewrite C, Q, Nat2Z.id. unfold cut_shown. rewrite (drop_ge _ (length _)) by lia. rewrite app_nil_r.
    split; [|done]. cbn. replace (Z.to_nat i + _) with (Z.to_nat i) by lia. apply take_ge. rewrite drop_length. lia.
  Qed.

  (** ** C39 *)
  Theorem C39_SplitOff st v i : reached st -> v < w_vn (fst st) -> (0 <= i <= Z.of_nat (length (vseq (fst st) v)))%Z ->
    exists w', SplitOff zero growth v i (fst st) = Ok (w_vn (fst st), w') /\
      vseq w' (w_vn (fst st)) = drop (Z.to_nat i) (vseq (fst st) v) /\ vseq w' v = take (Z.to_nat i) (vseq (fst st) v) /\
      reached (w', snd st) /\
      (forall os st2, avoids (inl (w_vn (fst st))) (w', snd st) os st2 -> vseq (fst st2) (w_vn (fst st)) = drop (Z.to_nat i) (vseq (fst st) v)) /\
      (forall os st2, avoids (inl v) (w', snd st) os st2 -> vseq (fst st2) v = take (Z.to_nat i) (vseq (fst st) v)).
  Proof.
    intros Hr Hv H. pose proof (reached_inv _ _ _ _ _ Hsrt Hsrt2 _ Hr) as Hi.
    destruct (SplitOff_ok zero growth auto_equal srt srt_stable (fst st) v i Hi Hv) as (r&w'&E&Ha&Hs&I&F&_&[-> N]).
    replace (good_range _ _ _) with true in Ha, Hs by (unfold good_range; lia). cbn in Ha.
    assert (Hr' : reached (w', snd st)).
    { eapply reached_steps; [exact Hr|]. econstructor; [|constructor]. destruct st as [w hs].
      pose proof (step_call w hs v (VSplitOff i) _ w' Hv E) as Hst. cbn in Hst. by rewrite app_nil_r in Hst. }
    exists w'. split.
    { cbn [v_exec] in E. unfold bind in E. destruct (SplitOff _ _ _ _ _) as [[u w2]| |]; [|done..]. by injection E as -> ->. }
    split; [done|]. split; [done|]. split; [done|]. split.
    - intros os st2 Hav. rewrite <- Ha. eapply (avoids_vec _ _ _ _ _ Hsrt Hsrt2 _ (w', snd st)); [done|done|]. cbn. lia.
    - intros os st2 Hav. rewrite <- Hs. eapply (avoids_vec _ _ _ _ _ Hsrt Hsrt2 _ (w', snd st)); [done|done|]. cbn. lia.
  Qed.

  (** ** C40 *)
  Theorem C40_Clone st v : reached st -> v < w_vn (fst st) ->
    exists w', Clone zero growth v (fst st) = Ok (w_vn (fst st), w') /\
      vseq w' (w_vn (fst st)) = vseq (fst st) v /\ vseq w' v = vseq (fst st) v /\ reached (w', snd st) /\
      (forall os st2, avoids (inl (w_vn (fst st))) (w', snd st) os st2 -> vseq (fst st2) (w_vn (fst st)) = vseq (fst st) v) /\
      (forall os st2, avoids (inl v) (w', snd st) os st2 -> vseq (fst st2) v = vseq (fst st) v).
  Proof.
    intros Hr Hv. pose proof (reached_inv _ _ _ _ _ Hsrt Hsrt2 _ Hr) as Hi.
    destruct (Clone_ok zero growth auto_equal srt srt_stable (fst st) v Hi Hv) as (r&w'&E&Ha&Hs&I&F&_&[-> N]). cbn in Ha.
    assert (Hr' : reached (w', snd st)).
    { eapply reached_steps; [exact Hr|]. econstructor; [|constructor]. destruct st as [w hs].
      pose proof (step_call w hs v VClone _ w' Hv E) as Hst. cbn in Hst. by rewrite app_nil_r in Hst. }
    exists w'. split.
    { cbn [v_exec] in E. unfold bind in E. destruct (Clone _ _ _ _) as [[u w2]| |]; [|done..]. by injection E as -> ->. }
    split; [done|]. split; [done|]. split; [done|]. split.
    - intros os st2 Hav. rewrite <- Ha. eapply (avoids_vec _ _ _ _ _ Hsrt Hsrt2 _ (w', snd st)); [done|done|]. cbn. lia.
    - intros os st2 Hav. rewrite <- Hs. eapply (avoids_vec _ _ _ _ _ Hsrt Hsrt2 _ (w', snd st)); [done|done|]. cbn. lia.
  Qed.
  (** The slice of CloneToSlice has an array of its own, except that nil stays nil. *)
  Theorem C40_CloneToSlice st v : reached st -> v < w_vn (fst st) ->
    exists s w', CloneToSlice zero growth v (fst st) = Ok (s, w') /\ contents w' s = vseq (fst st) v /\ vseq w' v = vseq (fst st) v /\
      let st1 := (w', snd st ++ handed v (VCloneToSlice : v_call T) (RSlice s)) in
      reached st1 /\
      (forall os st2, avoids (inl v) st1 os st2 -> vseq (fst st2) v = vseq (fst st) v) /\
      match s_arr s with
      | Some a => (inr a, s) ∈ snd st1 /\ forall os st2, avoids (inr a) st1 os st2 -> contents (fst st2) s = vseq (fst st) v
      | None => vseq (fst st) v = [] /\ forall w2, contents w2 s = []
      end.
  Proof.
    intros Hr Hv. pose proof (reached_inv _ _ _ _ _ Hsrt Hsrt2 _ Hr) as Hi.
    destruct (CloneToSlice_ok zero growth auto_equal srt srt_stable (fst st) v Hi Hv) as (r&w'&E&Ha&Hs&I&F&_&N).
    cbn [v_exec] in E. unfold bind in E. destruct (CloneToSlice _ _ _ _) as [[s w2]| |] eqn:E2; [|done..]. injection E as <- <-. cbn in Ha.
    exists s, w2. split; [done|]. split; [done|]. split; [done|]. cbn zeta.
    assert (Hr' : reached (w2, snd st ++ handed v (VCloneToSlice : v_call T) (RSlice s))).
    { eapply reached_steps; [exact Hr|]. econstructor; [|constructor]. destruct st as [w hs]. apply step_call; [done|].
      cbn [v_exec]. unfold bind. cbn [fst] in E2. by rewrite E2. }
    split; [done|]. split.
    - intros os st2 Hav. rewrite <- Hs. eapply (avoids_vec _ _ _ _ _ Hsrt Hsrt2 _ _ _ _ Hav Hr'). cbn in N |- *. lia.
    - destruct (s_arr s) as [a|] eqn:Es.
      + assert (Hin : (inr a, s) ∈ snd st ++ handed v (VCloneToSlice : v_call T) (RSlice s)).
        { apply elem_of_app. right. cbn. rewrite Es. by apply elem_of_list_singleton. }
        split; [done|]. intros os st2 Hav. rewrite <- Ha. eapply (avoids_slice _ _ _ _ _ Hsrt Hsrt2 _ _ _ _ _ Hav Hr'). done.
      + split; [|intros; unfold contents; by rewrite Es]. rewrite <- Ha. unfold contents. by rewrite Es.
  Qed.

  (** ** C41: refuted below; what the comparators of a clone are: *)
  (** Until its own comparator is set, a clone compares by the current comparator of the original. *)
  Theorem C41_clone_follows_less st v c r w1 os st2 : reached st -> v < w_vn (fst st) ->
    (c = VClone \/ exists i, c = VSplitOff i) -> exec v c (fst st) = Ok (r, w1) ->
    steps (w1, snd st) os st2 -> (forall o f, o ∈ os -> o <> OCall (w_vn (fst st)) (VSetLess f)) ->
    less_of (fst st2) (w_vn (fst st)) = less_of (fst st2) v.
  Proof.
    intros Hr Hv Hc E Hos Hn. pose proof (reached_inv _ _ _ _ _ Hsrt Hsrt2 _ Hr) as Hi.
    destruct (Clone_methods _ _ _ _ _ Hsrt Hsrt2 _ _ _ _ _ Hi Hv Hc E) as (M1&_&->&N).
    assert (Hr1 : reached (w1, snd st)).
    { eapply reached_steps; [exact Hr|]. econstructor; [|constructor]. destruct st as [w hs].
      pose proof (step_call w hs v c _ w1 Hv E) as Hst. cbn [fst snd] in *.
      assert (Hh : handed v c (RVec (w_vn w)) = []) by (by destruct c). rewrite Hh in Hst.
      by rewrite app_nil_r in Hst. }
    destruct (steps_less _ _ _ _ _ _ _ _ (w_vn (fst st)) Hos) as [M2 N2]; [cbn; lia|apply Forall_forall; intros o Ho f; by apply Hn|].
    cbn [fst] in *. rewrite M1 in M2.
    pose proof (reached_inv _ _ _ _ _ Hsrt Hsrt2 _ (reached_steps _ _ _ _ _ _ _ _ Hr1 Hos)) as Hi2.
    change (cmp_less auto_less (S (w_vn (fst st))) (fst st2) (w_vn (fst st))) with
      (match v_less (w_vec (fst st2) (w_vn (fst st))) with None => auto_less | Some (CUser f) => Some f | Some (CMethod u) => cmp_less auto_less (w_vn (fst st)) (fst st2) u end).
    rewrite M2. apply cmp_less_fuel; [done|lia..].
  Qed.
  Theorem C41_clone_follows_equal st v c r w1 os st2 : reached st -> v < w_vn (fst st) ->
    (c = VClone \/ exists i, c = VSplitOff i) -> exec v c (fst st) = Ok (r, w1) ->
    steps (w1, snd st) os st2 -> (forall o f, o ∈ os -> o <> OCall (w_vn (fst st)) (VSetEqual f)) ->
    equal_of (fst st2) (w_vn (fst st)) = equal_of (fst st2) v.
  Proof.
    intros Hr Hv Hc E Hos Hn. pose proof (reached_inv _ _ _ _ _ Hsrt Hsrt2 _ Hr) as Hi.
    destruct (Clone_methods _ _ _ _ _ Hsrt Hsrt2 _ _ _ _ _ Hi Hv Hc E) as (_&M1&->&N).
    assert (Hr1 : reached (w1, snd st)).
    { eapply reached_steps; [exact Hr|]. econstructor; [|constructor]. destruct st as [w hs].
      pose proof (step_call w hs v c _ w1 Hv E) as Hst. cbn [fst snd] in *.
      assert (Hh : handed v c (RVec (w_vn w)) = []) by (by destruct c). rewrite Hh in Hst.
      by rewrite app_nil_r in Hst. }
    destruct (steps_equal _ _ _ _ _ _ _ _ (w_vn (fst st)) Hos) as [M2 N2]; [cbn; lia|apply Forall_forall; intros o Ho f; by apply Hn|].
    cbn [fst] in *. rewrite M1 in M2.
    pose proof (reached_inv _ _ _ _ _ Hsrt Hsrt2 _ (reached_steps _ _ _ _ _ _ _ _ Hr1 Hos)) as Hi2.
    change (cmp_equal auto_equal (S (w_vn (fst st))) (fst st2) (w_vn (fst st))) with
      (match v_equal (w_vec (fst st2) (w_vn (fst st))) with None => auto_equal | Some (CUser f) => Some f | Some (CMethod u) => cmp_equal auto_equal (w_vn (fst st)) (fst st2) u end).
    rewrite M2. apply cmp_equal_fuel; [done|lia..].
  Qed.
  (** Once set on the vector itself, its comparator stays whatever is done to others. *)
  Theorem C41_own_comparator_stays st u f w1 os st2 : reached st -> u < w_vn (fst st) ->
    SetCmpLess u (Some f) (fst st) = Ok (tt, w1) -> steps (w1, snd st) os st2 ->
    (forall o g, o ∈ os -> o <> OCall u (VSetLess g)) -> less_of (fst st2) u = Some f.
  Proof.
    intros Hr Hu E Hos Hn. unfold SetCmpLess in E. injection E as <-.
    destruct (steps_less _ _ _ _ _ _ _ _ u Hos) as [M2 N2]; [done|apply Forall_forall; intros o Ho g; by apply Hn|].
    cbn [fst] in M2. cbn in M2. rewrite fn_lookup_insert in M2. cbn in M2. cbn. by rewrite M2.
  Qed.

  (** ** C42 *)
  Theorem C42_BinarySearch w v t lt eq : less_of w v = Some lt -> equal_of w v = Some eq -> swo lt -> all_sorted lt (vseq w v) ->
    exists i b, BinarySearch auto_less auto_equal v t w = Ok ((Z.of_nat i, b), w) /\ i <= length (vseq w v) /\
      (forall k x, k < i -> vseq w v !! k = Some x -> lt x t = true) /\
      (forall k x, i <= k -> vseq w v !! k = Some x -> lt x t = false) /\
      (b = true <-> exists x, vseq w v !! i = Some x /\ eq x t = true).
  Proof.
    intros E1 E2 Hs Ha. destruct (BinarySearchFunc_ok lt eq (vseq w v) t Hs Ha) as (i&b&E&H). exists i, b. split; [|done].
    unfold BinarySearch, BinarySearchFunc, bind, get_d, read, CmpLess, CmpEqual. rewrite E1, E2.
    change (call_cmp (Some lt)) with (pure_cmp lt). change (call_cmp (Some eq)) with (pure_cmp eq).
    fold (vseq w v). by rewrite E.
  Qed.
  (** If equality is that of the order, found means that some element equals the target. *)
  Theorem C42_BinarySearch_found w v t lt eq : less_of w v = Some lt -> equal_of w v = Some eq -> swo lt -> matches lt eq ->
    all_sorted lt (vseq w v) ->
    exists i b, BinarySearch auto_less auto_equal v t w = Ok ((Z.of_nat i, b), w) /\
      (b = true <-> exists x, x ∈ vseq w v /\ eq x t = true).
  Proof.
    intros E1 E2 Hs Hm Ha. destruct (C42_BinarySearch w v t lt eq E1 E2 Hs Ha) as (i&b&E&Hi&H1&H2&Hb). exists i, b. split; [done|].
    rewrite Hb. split.
    - intros (x&Hx&He). exists x. split; [by eapply elem_of_list_lookup_2|done].
    - intros (x&Hx&He). apply elem_of_list_lookup in Hx as [k Hk]. rewrite Hm in He.
      assert (i <= k) as Hik. { destruct (decide (i <= k)); [done|]. rewrite (H1 k x) in He by (done || lia). done. }
      destruct (lookup_lt_is_Some_2 (vseq w v) i) as [y Hy]. { apply lookup_lt_Some in Hk. lia. }
      exists y. split; [done|]. rewrite Hm. rewrite (H2 i y) by (done || lia). cbn.
      destruct (decide (i = k)) as [->|Hne]. { assert (y = x) as -> by congruence. by destruct (lt x t), (lt t x). }
      destruct (lt t y) eqn:Ety; [|done]. exfalso.
      pose proof (Ha i k y x ltac:(lia) Hy Hk) as Hxy. rewrite (swo_left lt t x y Hs) in Hxy; [done|done|]. by destruct (lt x t), (lt t x).
  Qed.

  (** ** C43 *)
  Theorem C43_Search w v t eq : equal_of w v = Some eq ->
    exists i, Search auto_equal v t w = Ok (i, w) /\ first_hit (eq t) (vseq w v) i.
  Proof.
    intros E. destruct (indexFunc_first (eq t) (vseq w v)) as (i&Ei&H). exists i. split; [|done].
    unfold Search, SearchFunc, bind, get_d, read, CmpEqual. rewrite E. fold (vseq w v). cbn [call_cmp]. by rewrite Ei.
  Qed.
  Theorem C43_SearchFunc w v p : exists i, SearchFunc v (fun x => Ok (p x)) w = Ok (i, w) /\ first_hit p (vseq w v) i.
  Proof.
    destruct (indexFunc_first p (vseq w v)) as (i&Ei&H). exists i. split; [|done].
    unfold SearchFunc, bind, get_d, read. fold (vseq w v). by rewrite Ei.
  Qed.
  Lemma SearchAllFunc_eq st v p fuel : reached st -> v < w_vn (fst st) -> length (vseq (fst st) v) <= fuel ->
    SearchAllFunc fuel v (fun x => Ok (p x)) (fst st) = Ok (hits p 0 (vseq (fst st) v), fst st).
  Proof.
    intros Hr Hv Hf. pose proof (reached_inv _ _ _ _ _ Hsrt Hsrt2 _ Hr) as Hi.
    pose proof (range_ok (fun i x acc => (true, if p x then acc ++ [i] else acc)) (fst st) v Hi Hv fuel 0%Z [] ltac:(lia) ltac:(lia)) as H.
    rewrite range_hits in H. cbn [app] in H. exact H.
  Qed.
  (** SearchAll terminates with the matching indices in increasing order. *)
  Theorem C43_SearchAll st v t eq fuel : reached st -> v < w_vn (fst st) -> equal_of (fst st) v = Some eq -> length (vseq (fst st) v) <= fuel ->
    exists r, SearchAll auto_equal fuel v t (fst st) = Ok (r, fst st) /\ StronglySorted Z.lt r /\
      forall n, n ∈ r <-> (0 <= n)%Z /\ exists x, vseq (fst st) v !! Z.to_nat n = Some x /\ eq t x = true.
  Proof.
    intros Hr Hv E Hf. exists (hits (eq t) 0 (vseq (fst st) v)). split; [|split].
    - unfold SearchAll, CmpEqual. rewrite E. cbn [call_cmp]. by apply SearchAllFunc_eq.
    - apply hits_sorted.
    - intros n. rewrite hits_spec, Z.sub_0_r. done.
  Qed.
  Theorem C43_SearchAllFunc st v p fuel : reached st -> v < w_vn (fst st) -> length (vseq (fst st) v) <= fuel ->
    exists r, SearchAllFunc fuel v (fun x => Ok (p x)) (fst st) = Ok (r, fst st) /\ StronglySorted Z.lt r /\
      forall n, n ∈ r <-> (0 <= n)%Z /\ exists x, vseq (fst st) v !! Z.to_nat n = Some x /\ p x = true.
  Proof.
    intros Hr Hv Hf. exists (hits p 0 (vseq (fst st) v)). split; [|split].
    - by apply SearchAllFunc_eq.
    - apply hits_sorted.
    - intros n. rewrite hits_spec, Z.sub_0_r. done.
  Qed.
  Theorem C43_Contains w v t eq : equal_of w v = Some eq ->
    exists b, Contains auto_equal v t w = Ok (b, w) /\ (b = true <-> exists x, x ∈ vseq w v /\ eq x t = true).
  Proof.
    intros E. destruct (containsFunc_ok (fun x => eq x t) (vseq w v)) as (b&Eb&H). exists b. split; [|done].
    unfold Contains, ContainsFunc, bind, get_d, read, CmpEqual. rewrite E. fold (vseq w v). cbn [call_cmp]. by rewrite Eb.
  Qed.
  Theorem C43_ContainsFunc w v p :
    exists b, ContainsFunc v (fun x => Ok (p x)) w = Ok (b, w) /\ (b = true <-> exists x, x ∈ vseq w v /\ p x = true).
  Proof.
    destruct (containsFunc_ok p (vseq w v)) as (b&Eb&H). exists b. split; [|done].
    unfold ContainsFunc, bind, get_d, read. fold (vseq w v). by rewrite Eb.
  Qed.

  (** ** C44 *)
  Theorem C44_Max w v lt eq : less_of w v = Some lt -> equal_of w v = Some eq -> swo lt -> matches lt eq -> vseq w v <> [] ->
    exists x, Max auto_less auto_equal v w = Ok (x, w) /\ x ∈ vseq w v /\ forall y, y ∈ vseq w v -> lt x y = false.
  Proof.
    intros E1 E2 Hs Hm Hne. unfold Max, MaxFunc, bind, get_d, read, CmpLess, CmpEqual. rewrite E1, E2. fold (vseq w v).
    destruct (vseq w v) as [|x l]; [done|]. destruct (maxFunc_ok lt eq Hs Hm l x) as (r&E&Hin&H). exists r.
    change (call_cmp (Some lt)) with (pure_cmp lt). change (call_cmp (Some eq)) with (pure_cmp eq). by rewrite E.
  Qed.
  Theorem C44_Min w v lt eq : less_of w v = Some lt -> equal_of w v = Some eq -> swo lt -> vseq w v <> [] ->
    exists x, Min auto_less auto_equal v w = Ok (x, w) /\ x ∈ vseq w v /\ forall y, y ∈ vseq w v -> lt y x = false.
  Proof.
    intros E1 E2 Hs Hne. unfold Min, MinFunc, bind, get_d, read, CmpLess, CmpEqual. rewrite E1, E2. fold (vseq w v).
    destruct (vseq w v) as [|x l]; [done|]. destruct (minFunc_ok lt eq Hs l x) as (r&E&Hin&H). exists r.
    change (call_cmp (Some lt)) with (pure_cmp lt). change (call_cmp (Some eq)) with (pure_cmp eq). by rewrite E.
  Qed.
  (** Both panic on the empty vector. *)
  Theorem C44_Max_Min_empty w v : vseq w v = [] -> Max auto_less auto_equal v w = Panic /\ Min auto_less auto_equal v w = Panic.
  Proof. intros E. unfold Max, Min, MaxFunc, MinFunc, bind, get_d, read. fold (vseq w v). by rewrite E. Qed.
  Theorem C44_IsSorted w v lt eq : less_of w v = Some lt -> equal_of w v = Some eq ->
    exists b, IsSorted auto_less auto_equal v w = Ok (b, w) /\ (b = true <-> adjacent_sorted lt (vseq w v)).
  Proof.
    intros E1 E2. unfold IsSorted, IsSortedFunc, bind, get_d, read, CmpLess, CmpEqual. rewrite E1, E2. fold (vseq w v).
    destruct (isSorted_ok lt eq (vseq w v)) as (b&E&H). exists b.
    change (call_cmp (Some lt)) with (pure_cmp lt). change (call_cmp (Some eq)) with (pure_cmp eq). by rewrite E.
  Qed.
  Theorem C44_IsSorted_total lt l : swo lt -> adjacent_sorted lt l <-> all_sorted lt l.
  Proof.
    intros Hs. split; [by apply adjacent_all|]. intros H i x y Hx Hy. apply (H i (S i)); [lia|done|done].
  Qed.
  Theorem C44_Compare w v u lt eq : less_of w v = Some lt -> equal_of w v = Some eq ->
    exists n, Compare auto_less auto_equal v u w = Ok (n, w) /\ forall m, lex lt eq (vseq w v) (vseq w u) m <-> m = n.
  Proof.
    intros E1 E2. unfold Compare, CompareFunc, bind, get_d, read, CmpLess, CmpEqual. rewrite E1, E2. fold (vseq w v) (vseq w u).
    destruct (compareFunc_ok lt eq (vseq w v) (vseq w u)) as (c&E&H). exists c.
    change (call_cmp (Some lt)) with (pure_cmp lt). change (call_cmp (Some eq)) with (pure_cmp eq). rewrite E. split; [done|].
    intros c'. split; [intros H'; by eapply lex_det|by intros ->].
  Qed.
  (** Compact keeps the first element and those that differ from their left neighbour. *)
  Theorem C44_Compact st v eq : reached st -> v < w_vn (fst st) -> equal_of (fst st) v = Some eq ->
    exists w', Compact zero auto_equal v (fst st) = Ok (tt, w') /\
      vseq w' v = match vseq (fst st) v with [] => [] | x :: l => x :: (filter (fun p => eq p.1 p.2 = false) (zip l (x :: l))).*1 end /\
      forall u, u < w_vn (fst st) -> u <> v -> vseq w' u = vseq (fst st) u.
  Proof.
    intros Hr Hv E. pose proof (reached_inv _ _ _ _ _ Hsrt Hsrt2 _ Hr) as Hi.
    destruct (Compact_ok zero growth auto_equal srt srt_stable (fst st) v Hi Hv eq) as (r&w'&E'&_&Q&_&F&_).
    exists w'. split; [|split].
    - unfold Compact, CmpEqual. rewrite E. change (call_cmp (Some eq)) with (pure_cmp eq). cbn [v_exec] in E'. unfold bind in E'.
      destruct (CompactFunc _ _ _ _) as [[[] w2]| |]; [|done..]. by injection E' as _ ->.
    - rewrite Q. unfold compacted. destruct (vseq (fst st) v); [done|]. by rewrite dedup_zip.
    - intros u Hu Hne. by apply (frame_other (fst st) v w').
  Qed.

  (** ** C45 *)
  Theorem C45_out_of_range st v i x : reached st -> v < w_vn (fst st) -> in_range i (vseq (fst st) v) = false ->
    Get zero v i (fst st) = Ok ((zero, false), fst st) /\ Set_ v i x (fst st) = Ok (false, fst st) /\
    Remove zero v i (fst st) = Ok ((zero, false), fst st) /\
    ConpareAndRemove zero auto_equal v i x (fst st) = Ok ((zero, false), fst st) /\
    (forall j, Swap v i j (fst st) = Ok (tt, fst st)) /\ (forall j, Swap v j i (fst st) = Ok (tt, fst st)) /\
    (forall j, Less auto_less v i j (fst st) = Panic) /\ (forall j, Equal auto_equal v i j (fst st) = Panic).
  Proof.
    intros Hr Hv H. pose proof (reached_inv _ _ _ _ _ Hsrt Hsrt2 _ Hr) as Hi. unfold in_range in H. rewrite (len_l _ v Hi Hv) in H.
    unfold Get, Set_, Remove, ConpareAndRemove, Swap, Less, Equal, bind, ret. rewrite Len_eq. cbv beta iota.
    replace ((i >=? _)%Z || (i <? 0)%Z) with true by lia. replace ((i <? 0)%Z || (i >=? _)%Z) with true by lia.
    assert (Hg : idx (v_d (w_vec (fst st) v)) i (fst st) = Panic).
    { unfold idx, getZ. case_bool_decide; [|done]. rewrite lookup_ge_None_2; [done|]. rewrite contents_length by (by apply Hi). lia. }
    split; [done|]. split; [done|]. split; [done|]. split; [done|]. split; [done|]. split; [|split].
    - intros j. by replace (_ || _ || _ || _)%bool with true by lia.
    - intros j. unfold get_d. by rewrite Hg.
    - intros j. unfold get_d. by rewrite Hg.
  Qed.
  Theorem C45_empty st v : reached st -> v < w_vn (fst st) -> vseq (fst st) v = [] ->
    Pop zero v (fst st) = Ok ((zero, false), fst st) /\ First zero v (fst st) = Ok ((zero, false), fst st) /\
    Last zero v (fst st) = Ok ((zero, false), fst st).
  Proof.
    intros Hr Hv H. pose proof (reached_inv _ _ _ _ _ Hsrt Hsrt2 _ Hr) as Hi. pose proof (len_l _ v Hi Hv) as HL. rewrite H in HL. cbn in HL.
    unfold Pop, Remove, First, Last, bind, ret. rewrite Len_eq. cbv beta iota. rewrite Len_eq. rewrite <- HL. done.
  Qed.
  Theorem C45_bad_range st v i j : reached st -> v < w_vn (fst st) -> good_range i j (vseq (fst st) v) = false ->
    Cut zero growth v i j (fst st) = Ok (nil_slice, fst st) /\ SliceCut v i j (fst st) = Ok (nil_slice, fst st) /\
    Delete zero growth v i j (fst st) = Panic /\ (forall vs, Replace zero growth v i j vs (fst st) = Panic) /\
    (i = j -> forall vs, Insert zero growth v i vs (fst st) = Panic).
  Proof.
    intros Hr Hv H. pose proof (reached_inv _ _ _ _ _ Hsrt Hsrt2 _ Hr) as Hi. unfold good_range in H. rewrite (len_l _ v Hi Hv) in H.
    unfold Cut, SliceCut, bind, ret. rewrite Len_eq. cbv beta iota. replace (_ || _ || _)%bool with true by lia.
    split; [done|]. split; [done|]. unfold Delete, Replace, Insert, s_Delete, s_Insert, s_Replace, bind, get_d.
    rewrite H. split; [done|]. split; [done|]. intros ->. by rewrite H.
  Qed.
  Theorem C45_good_range st v i j : reached st -> v < w_vn (fst st) -> good_range i j (vseq (fst st) v) = true ->
    (exists w', Delete zero growth v i j (fst st) = Ok (tt, w')) /\ (forall vs, exists w', Replace zero growth v i j vs (fst st) = Ok (tt, w')) /\
    (i = j -> forall vs, exists w', Insert zero growth v i vs (fst st) = Ok (tt, w')).
  Proof.
    intros Hr Hv H. pose proof (reached_inv _ _ _ _ _ Hsrt Hsrt2 _ Hr) as Hi.
    assert (HR : forall vs, exists w', Replace zero growth v i j vs (fst st) = Ok (tt, w')).
    { intros vs. unfold good_range in H. rewrite (len_l _ v Hi Hv) in H.
      destruct (replace_spec zero growth (fst st) (v_d (w_vec (fst st) v)) i j vs (i_wf _ Hi v Hv)) as (s'&w1&E&_); [lia|lia|].
      unfold Replace, bind, get_d. rewrite E. eexists. reflexivity. }
    split; [apply (HR [])|]. split; [done|]. intros ->. exact HR.
  Qed.

  (** ** C80 *)
  Theorem C80_EqualVec w v u eq : equal_of w v = Some eq ->
    exists b, EqualVec auto_equal v u w = Ok (b, w) /\ (b = true <-> pointwise eq (vseq w v) (vseq w u)).
  Proof.
    intros E. destruct (equalFunc_ok eq (vseq w v) (vseq w u)) as (b&Eb&H). exists b. split; [|done].
    unfold EqualVec, EqualVecFunc, bind, get_d, read, CmpEqual. rewrite E. fold (vseq w v) (vseq w u).
    change (call_cmp (Some eq)) with (pure_cmp eq). by rewrite Eb.
  Qed.
  Theorem C80_EqualSlice w v l eq : equal_of w v = Some eq ->
    exists b, EqualSlice auto_equal v l w = Ok (b, w) /\ (b = true <-> pointwise eq (vseq w v) l).
  Proof.
    intros E. destruct (equalFunc_ok eq (vseq w v) l) as (b&Eb&H). exists b. split; [|done].
    unfold EqualSlice, EqualSliceFunc, bind, get_d, read, CmpEqual. rewrite E. fold (vseq w v).
    change (call_cmp (Some eq)) with (pure_cmp eq). by rewrite Eb.
  Qed.

  (** ** C82 *)
  Theorem C82_Range {B} st v (f : Z -> T -> B -> bool * B) acc fuel : reached st -> v < w_vn (fst st) -> length (vseq (fst st) v) <= fuel ->
    range_loop fuel v (fun i x acc => ret (f i x acc)) 0 acc (fst st) = Ok (range_spec f 0 (vseq (fst st) v) acc, fst st).
  Proof.
    intros Hr Hv Hf. pose proof (reached_inv _ _ _ _ _ Hsrt Hsrt2 _ Hr) as Hi. rewrite range_ok; [done|done|done|lia|lia].
  Qed.
End properties.

(** ** C81 *)
Section sorting.
  Context {T : Type} (zero : T) (growth : nat -> nat -> nat -> nat).
  Context (auto_less auto_equal : option (T -> T -> bool)).
  Context (srt srt_stable : (T -> T -> Z) -> list T -> list T).
  Notation reached := (v_reached zero growth auto_equal srt srt_stable).
  Theorem C81_Sort (st : state T) v lt eq : sorts srt -> sorts_stably srt_stable -> reached st -> v < w_vn (fst st) ->
    cmp_less auto_less (S v) (fst st) v = Some lt -> cmp_equal auto_equal (S v) (fst st) v = Some eq -> swo lt -> matches lt eq ->
    exists w', Sort auto_less auto_equal srt v (fst st) = Ok (tt, w') /\ vseq w' v ≡ₚ vseq (fst st) v /\ all_sorted lt (vseq w' v) /\
      forall u, u < w_vn (fst st) -> u <> v -> vseq w' u = vseq (fst st) u.
  Proof.
    intros Hs1 [Hs2 _] Hr Hv E1 E2 Hlt Hm. pose proof (reached_inv _ _ _ _ _ (proj1 Hs1) (proj1 Hs2) _ Hr) as Hi.
    destruct (Sort_ok zero growth auto_equal srt srt_stable (fst st) v Hi Hv lt eq (proj1 Hs1)) as (r&w'&E'&_&Q&_&F&_).
    exists w'. split; [|split; [|split]].
    - unfold Sort, sort_with. rewrite E1, E2. cbn [v_exec] in E'. unfold bind in E'.
      destruct (SortFunc _ _ _ _ _) as [[[] w2]| |]; [|done..]. by injection E' as _ ->.
    - rewrite Q. apply Hs1.
    - rewrite Q. by apply Hs1.
    - intros u Hu Hne. by apply (frame_other (fst st) v w').
  Qed.
  Theorem C81_SortStable (st : state T) v lt eq : sorts srt -> sorts_stably srt_stable -> reached st -> v < w_vn (fst st) ->
    cmp_less auto_less (S v) (fst st) v = Some lt -> cmp_equal auto_equal (S v) (fst st) v = Some eq -> swo lt -> matches lt eq ->
    exists w', SortStable auto_less auto_equal srt_stable v (fst st) = Ok (tt, w') /\ vseq w' v ≡ₚ vseq (fst st) v /\ all_sorted lt (vseq w' v) /\
      (forall a, filter (fun x => eq a x = true) (vseq w' v) = filter (fun x => eq a x = true) (vseq (fst st) v)) /\
      forall u, u < w_vn (fst st) -> u <> v -> vseq w' u = vseq (fst st) u.
  Proof.
    intros Hs1 [Hs2 Hst] Hr Hv E1 E2 Hlt Hm. pose proof (reached_inv _ _ _ _ _ (proj1 Hs1) (proj1 Hs2) _ Hr) as Hi.
    destruct (SortStable_ok zero growth auto_equal srt srt_stable (fst st) v Hi Hv lt eq (proj1 Hs2)) as (r&w'&E'&_&Q&_&F&_).
    exists w'. split; [|split; [|split; [|split]]].
    - unfold SortStable, sort_with. rewrite E1, E2. cbn [v_exec] in E'. unfold bind in E'.
      destruct (SortStableFunc _ _ _ _ _) as [[[] w2]| |]; [|done..]. by injection E' as _ ->.
    - rewrite Q. apply Hs2.
    - rewrite Q. by apply Hs2.
    - intros a. rewrite Q. by apply Hst.
    - intros u Hu Hne. by apply (frame_other (fst st) v w').
  Qed.
End sorting.

(** * Refutations and examples, with vectors of integers *)
Definition six : list (v_op Z) := [ONew None None; OCall 0 (VPush [1; 2; 3; 4; 5; 6]%Z)].

(** Cutting [1,3) out of 1..6 returns 4, 5 and not 2, 3. *)
Theorem C38_Cut_returns_removed_refuted : exists st s w', zreached st /\ 0 < w_vn (fst st) /\
  vseq (fst st) 0 = [1; 2; 3; 4; 5; 6]%Z /\ Cut 0%Z (fun _ _ n => 2 * n) 0 1 3 (fst st) = Ok (s, w') /\ contents w' s = [4; 5]%Z.
Proof.
  destruct (run_reached 0%Z (fun _ _ n => 2 * n) (Some Z.eqb) isort isort six (fun st => 0 < w_vn (fst st) /\ vseq (fst st) 0 = [1; 2; 3; 4; 5; 6]%Z)) as (st&Hr&Hv&Hs).
  { vm_compute. split; [lia|reflexivity]. }
  destruct (C38_Cut_exact 0%Z (fun _ _ n => 2 * n) (Some Z.eqb) isort isort isort_perm isort_perm st 0 1 3 Hr Hv) as (s&w'&E&C&_); [by rewrite Hs|].
  exists st, s, w'. split; [done|]. split; [done|]. split; [done|]. split; [done|]. rewrite C, Hs. reflexivity.
Qed.
(** Setting the comparator of the original to > makes the clone compare by > too. *)
Theorem C41_clone_comparator_refuted : exists st, zreached st /\ w_vn (fst st) = 2 /\
  cmp_less (Some Z.ltb) 2 (fst st) 1 = Some Z.gtb.
Proof.
  apply (run_reached 0%Z (fun _ _ n => 2 * n) (Some Z.eqb) isort isort
    [ONew (Some Z.ltb) None; OCall 0 (VPush [3; 1]%Z); OCall 0 VClone; OCall 0 (VSetLess (Some Z.gtb))]).
  vm_compute. split; reflexivity.
Qed.
Theorem C41_clone_comparator_before : exists st, zreached st /\ w_vn (fst st) = 2 /\
  cmp_less (Some Z.ltb) 2 (fst st) 1 = Some Z.ltb.
Proof.
  apply (run_reached 0%Z (fun _ _ n => 2 * n) (Some Z.eqb) isort isort
    [ONew (Some Z.ltb) None; OCall 0 (VPush [3; 1]%Z); OCall 0 VClone]).
  vm_compute. split; reflexivity.
Qed.

(** A program that exercises most calls, with what it should answer. *)
Definition long_run : list (v_call Z) :=
  [VPush [1; 2; 3]; VPush [4; 5; 6; 7]; VRemove 2; VPop; VInsert 1 [9; 9]; VSwap 0 4; VSet 2 8; VSet 99 0; VDelete 0 1;
   VReplace 1 2 [5; 5; 5]; VCompactFunc Z.eqb; VReverse; VCut 1 3; VConpareAndRemove 0 6; VClone; VGrow 40; VClip; VLen; VSlice;
   VSortFunc Z.ltb Z.eqb; VFirst; VLast; VClear; VGet 0]%Z.
Example C37_example : exists st, zreached st /\ vseq (fst st) 0 = [] /\ vseq (fst st) 1 = [2; 5; 9]%Z /\
  spec_run 0%Z (Some Z.eqb) isort isort (Some Z.eqb) [] long_run =
    Some ([AUnit; AUnit; AElem 3 true; AElem 7 true; AUnit; AUnit; ABool true; ABool false; AUnit; AUnit; AUnit; AUnit; ASeq [2; 5];
           AElem 6 true; ASeq [2; 5; 9]; AUnit; AUnit; ANum 3; ASeq [2; 5; 9]; AUnit; AElem 2 true; AElem 9 true; AUnit; AElem 0 false]%Z, []).
Proof.
  destruct (run_reached 0%Z (fun _ _ n => 2 * n) (Some Z.eqb) isort isort (ONew None None :: map (OCall 0) long_run)
    (fun st => vseq (fst st) 0 = [] /\ vseq (fst st) 1 = [2; 5; 9]%Z)) as (st&Hr&H1&H2); [vm_compute; done|].
  exists st. split; [done|]. split; [done|]. split; [done|]. vm_compute. reflexivity.
Qed.

(** A state with a clone (vector 1), the half split off (vector 2), a slice of vector 0 (handed-out
    slice 0) and a clone to a slice (handed-out slice 1), all of which were written to. *)
Definition split_run : list (v_op Z) :=
  [ONew None None; OCall 0 (VPush [1; 2; 3; 4; 5; 6]%Z); OCall 0 VSlice; OCall 0 VCloneToSlice; OCall 0 VClone; OCall 0 (VSplitOff 4);
   OCall 0 (VPush [70; 80]%Z); OCall 2 (VSet 0 50%Z); OCall 1 (VSet 5 60%Z); OWrite 0 0 10%Z; OWrite 1 1 20%Z].
Example C39_C40_example : exists st, zreached st /\ w_vn (fst st) = 3 /\
  vseq (fst st) 0 = [10; 2; 3; 4; 70; 80]%Z /\ vseq (fst st) 1 = [1; 2; 3; 4; 5; 60]%Z /\ vseq (fst st) 2 = [50; 6]%Z /\
  map (fun p => contents (fst st) (snd p)) (snd st) = [[10; 2; 3; 4; 70; 80]; [1; 20; 3; 4; 5; 6]]%Z.
Proof. apply (run_reached _ _ _ _ _ split_run). vm_compute. done. Qed.
Definition four : list (v_op Z) := [ONew None None; OCall 0 (VPush [3; 5; 5; 9]%Z); ONew None None; OCall 1 (VPush [3; 5; 4]%Z)].
Example C42_C45_example : exists st, zreached st /\ w_vn (fst st) = 2 /\ vseq (fst st) 0 = [3; 5; 5; 9]%Z /\ vseq (fst st) 1 = [3; 5; 4]%Z /\
  cmp_less (Some Z.ltb) 1 (fst st) 0 = Some Z.ltb /\ cmp_equal (Some Z.eqb) 1 (fst st) 0 = Some Z.eqb /\
  cmp_less (Some Z.ltb) 2 (fst st) 1 = Some Z.ltb /\ cmp_equal (Some Z.eqb) 2 (fst st) 1 = Some Z.eqb /\
  map (fun t => BinarySearch (Some Z.ltb) (Some Z.eqb) 0 t (fst st)) [5; 4; 10]%Z = map (fun r => Ok (r, fst st)) [(1, true); (1, false); (4, false)]%Z /\
  Search (Some Z.eqb) 0 5%Z (fst st) = Ok (1%Z, fst st) /\ SearchAll (Some Z.eqb) 4 0 5%Z (fst st) = Ok ([1; 2]%Z, fst st) /\
  Contains (Some Z.eqb) 0 4%Z (fst st) = Ok (false, fst st) /\
  Max (Some Z.ltb) (Some Z.eqb) 1 (fst st) = Ok (5%Z, fst st) /\ Min (Some Z.ltb) (Some Z.eqb) 1 (fst st) = Ok (3%Z, fst st) /\
  IsSorted (Some Z.ltb) (Some Z.eqb) 0 (fst st) = Ok (true, fst st) /\ IsSorted (Some Z.ltb) (Some Z.eqb) 1 (fst st) = Ok (false, fst st) /\
  Compare (Some Z.ltb) (Some Z.eqb) 0 1 (fst st) = Ok (1%Z, fst st) /\ EqualVec (Some Z.eqb) 0 1 (fst st) = Ok (false, fst st) /\
  in_range 4 (vseq (fst st) 0) = false /\ good_range 3 2 (vseq (fst st) 0) = false /\ good_range 1 3 (vseq (fst st) 0) = true.
Proof. apply (run_reached _ _ _ _ _ four). vm_compute. repeat split; reflexivity. Qed.
Example C42_example_sorted : all_sorted Z.ltb [3; 5; 5; 9]%Z /\ swo Z.ltb /\ matches Z.ltb Z.eqb.
Proof.
  split; [|split; [apply Zltb_swo|apply Zeqb_matches]]. apply adjacent_all; [apply Zltb_swo|].
  intros i x y Hx Hy. destruct i as [|[|[|[|i]]]]; cbn in Hx, Hy; simplify_eq; done.
Qed.
Example C81_example : exists st w', zreached st /\ sorts (isort : (Z -> Z -> Z) -> list Z -> list Z) /\ sorts_stably (isort : (Z -> Z -> Z) -> list Z -> list Z) /\
  vseq (fst st) 1 = [3; 5; 4]%Z /\ Sort (Some Z.ltb) (Some Z.eqb) isort 1 (fst st) = Ok (tt, w') /\ vseq w' 1 = [3; 4; 5]%Z.
Proof.
  destruct (run_reached 0%Z (fun _ _ n => 2 * n) (Some Z.eqb) isort isort four (fun st => exists w', vseq (fst st) 1 = [3; 5; 4]%Z /\
    Sort (Some Z.ltb) (Some Z.eqb) isort 1 (fst st) = Ok (tt, w') /\ vseq w' 1 = [3; 4; 5]%Z)) as (st&Hr&w'&H).
  { vm_compute. eexists. split; [reflexivity|]. split; [reflexivity|]. reflexivity. }
  exists st, w'. split; [done|]. split; [apply isort_sorts|]. split; [apply isort_sorts|done].
Qed.
Example C82_example : exists st, zreached st /\ vseq (fst st) 0 = [1; 2; 3; 4; 5; 6]%Z /\
  range_loop 6 0 (fun i x acc => ret ((x <? 4)%Z, acc ++ [(i, x)])) 0 [] (fst st) = Ok ([(0, 1); (1, 2); (2, 3); (3, 4)]%Z, fst st).
Proof. apply (run_reached _ _ _ _ _ six). vm_compute. done. Qed.

Print Assumptions C37_call. Print Assumptions C37_call_panics. Print Assumptions C37_history.
Print Assumptions C38_Cut_exact. Print Assumptions C38_Cut_element. Print Assumptions C38_Cut_tail. Print Assumptions C38_Cut_returns_removed_refuted.
Print Assumptions C39_SplitOff. Print Assumptions C40_Clone. Print Assumptions C40_CloneToSlice.
Print Assumptions C41_clone_follows_less. Print Assumptions C41_clone_follows_equal. Print Assumptions C41_own_comparator_stays.
Print Assumptions C41_clone_comparator_refuted. Print Assumptions C41_clone_comparator_before.
Print Assumptions C42_BinarySearch. Print Assumptions C42_BinarySearch_found.
Print Assumptions C43_Search. Print Assumptions C43_SearchFunc. Print Assumptions C43_SearchAll. Print Assumptions C43_SearchAllFunc.
Print Assumptions C43_Contains. Print Assumptions C43_ContainsFunc.
Print Assumptions C44_Max. Print Assumptions C44_Min. Print Assumptions C44_Max_Min_empty. Print Assumptions C44_IsSorted.
Print Assumptions C44_IsSorted_total. Print Assumptions C44_Compare. Print Assumptions C44_Compact.
Print Assumptions C45_out_of_range. Print Assumptions C45_empty. Print Assumptions C45_bad_range. Print Assumptions C45_good_range.
Print Assumptions C80_EqualVec. Print Assumptions C80_EqualSlice. Print Assumptions C81_Sort. Print Assumptions C81_SortStable. Print Assumptions C82_Range.
