(** A concrete instance for the examples: a runner for programs, and an insertion sort that meets the
    contract of slices.SortFunc and slices.SortStableFunc. *)
From Coq Require Import ZifyBool ZifyNat.
From Verif Require Import Base VecModel VecSpec VecProofs VecSteps VecHistory VecQuery.

Section runner.
  Context {T : Type} (zero : T) (growth : nat -> nat -> nat -> nat).
  Context (auto_equal : option (T -> T -> bool)).
  Context (srt srt_stable : (T -> T -> Z) -> list T -> list T).
  Definition run_op (st : state T) (o : v_op T) : option (state T) :=
    match o with
    | ONew less equal => match New (CUser <$> less) (CUser <$> equal) (fst st) with Ok (_, w) => Some (w, snd st) | _ => None end
    | OCall v c =>
        if (v <? w_vn (fst st))%nat then
          match v_exec zero growth auto_equal srt srt_stable v c (fst st) with Ok (r, w) => Some (w, snd st ++ handed v c r) | _ => None end
        else None
    | OWrite k i x =>
        match snd st !! k with Some (_, s) => match user_write s i x (fst st) with Ok (_, w) => Some (w, snd st) | _ => None end | None => None end
    end.
  Fixpoint run_ops (st : state T) (os : list (v_op T)) : option (state T) :=
    match os with [] => Some st | o :: os => match run_op st o with Some st => run_ops st os | None => None end end.
  Lemma run_op_ok st o st' : run_op st o = Some st' -> o_step zero growth auto_equal srt srt_stable st o st'.
  Proof.
    destruct st as [w hs]. destruct o as [less equal|v c|k i x]; cbn [run_op fst snd].
    - destruct (New _ _ w) as [[u w']| |] eqn:E; intros [= <-]. by econstructor.
    - destruct (Nat.ltb_spec v (w_vn w)); [|done]. destruct (v_exec _ _ _ _ _ _ _ _) as [[r w']| |] eqn:E; intros [= <-]. by constructor.
    - destruct (hs !! k) as [[o s]|] eqn:Ek; [|done]. destruct (user_write s i x w) as [[[] w']| |] eqn:E; intros [= <-]. by econstructor.
  Qed.
  Lemma run_ops_ok os : forall st st', run_ops st os = Some st' -> o_steps zero growth auto_equal srt srt_stable st os st'.
  Proof.
    induction os as [|o os IH]; intros st st'; cbn; [intros [= <-]; constructor|].
    destruct (run_op st o) as [st1|] eqn:E; [|done]. intros H. econstructor; [by apply run_op_ok|auto].
  Qed.
  Lemma run_reached os (P : state T -> Prop) : match run_ops (empty_vworld, []) os with Some st => P st | None => False end ->
    exists st, v_reached zero growth auto_equal srt srt_stable st /\ P st.
  Proof. destruct (run_ops _ _) as [st|] eqn:E; [|done]. intros HP. exists st. split; [|done]. exists os. by apply run_ops_ok. Qed.
End runner.

Section isort.
  Context {T : Type}.
  Fixpoint ins (f : T -> T -> Z) (x : T) (l : list T) : list T :=
    match l with [] => [x] | y :: l' => if (f y x <? 0)%Z then y :: ins f x l' else x :: l end.
  Fixpoint isort (f : T -> T -> Z) (l : list T) : list T := match l with [] => [] | x :: l => ins f x (isort f l) end.
  Lemma ins_perm f x : forall l, ins f x l ≡ₚ x :: l.
  Proof. induction l as [|y l IH]; cbn; [done|]. destruct (f y x <? 0)%Z; [|done]. rewrite IH. apply Permutation_swap. Qed.
  Lemma isort_perm f : forall l, isort f l ≡ₚ l.
  Proof. induction l as [|x l IH]; cbn; [done|]. by rewrite ins_perm, IH. Qed.
  Lemma three_neg lt eq (y x : T) : (three lt eq y x <? 0)%Z = lt y x.
  Proof. unfold three. destruct (lt y x); [done|]. by destruct (eq y x). Qed.
  Lemma sorted_cons lt (x : T) l : all_sorted lt (x :: l) <-> (forall y, y ∈ l -> lt y x = false) /\ all_sorted lt l.
  Proof.
    split.
    - intros H. split.
      + intros y Hy. apply elem_of_list_lookup in Hy as [j Hj]. apply (H 0 (S j) x y); [lia|done|done].
      + intros i j a b Hij Ha Hb. apply (H (S i) (S j)); [lia|done|done].
    - intros [H1 H2] i j a b Hij Ha Hb. destruct j as [|j]; [lia|]. cbn in Hb. destruct i as [|i]; cbn in Ha.
      + injection Ha as <-. apply H1. by eapply elem_of_list_lookup_2.
      + apply (H2 i j); [lia|done|done].
  Qed.
  Lemma ins_sorted lt eq x : swo lt -> forall l, all_sorted lt l -> all_sorted lt (ins (three lt eq) x l).
  Proof.
    intros Hs. induction l as [|y l IH]; intros Hl; cbn [ins].
    - intros i j a b Hij Ha Hb. destruct j as [|[|j]]; [lia|done|done].
    - rewrite three_neg. apply sorted_cons in Hl as [H1 H2]. destruct (lt y x) eqn:E.
      + apply sorted_cons. split; [|auto]. intros z Hz. rewrite ins_perm in Hz. apply elem_of_cons in Hz as [->|Hz]; [|auto].
        destruct (lt x y) eqn:E2; [|done]. destruct Hs as (S1&S2&_). rewrite <- (S1 x). symmetry. by apply (S2 x y x).
      + apply sorted_cons. split; [|by apply sorted_cons]. intros z Hz. apply elem_of_cons in Hz as [->|Hz]; [done|].
        eapply (swo_right lt y z x); auto.
  Qed.
  Lemma isort_sorted lt eq l : swo lt -> all_sorted lt (isort (three lt eq) l).
  Proof. intros Hs. induction l as [|x l IH]; cbn; [intros i j a b _ H; done|]. by apply ins_sorted. Qed.
  Lemma ins_stable lt eq x a : swo lt -> matches lt eq -> forall l,
    filter (fun z => eq a z = true) (ins (three lt eq) x l) = filter (fun z => eq a z = true) (x :: l).
  Proof.
    intros Hs Hm. induction l as [|y l IH]; cbn [ins]; [done|]. rewrite three_neg. destruct (lt y x) eqn:E; [|done].
    rewrite filter_cons, IH. rewrite (filter_cons _ x (y :: l)). rewrite (filter_cons _ y l). rewrite (filter_cons _ x l).
    destruct (decide (eq a y = true)) as [H1|H1], (decide (eq a x = true)) as [H2|H2]; try done. exfalso.
    rewrite Hm in H1, H2. apply andb_true_iff in H1 as [A B], H2 as [C D]. apply negb_true_iff in A, B, C, D.
    destruct Hs as (S1&S2&S3). destruct (S3 y a x); congruence.
  Qed.
  Lemma isort_stable lt eq l a : swo lt -> matches lt eq ->
    filter (fun z => eq a z = true) (isort (three lt eq) l) = filter (fun z => eq a z = true) l.
  Proof.
    intros Hs Hm. induction l as [|x l IH]; cbn [isort]; [done|]. rewrite ins_stable by done. rewrite !filter_cons, IH. done.
  Qed.
  Lemma isort_sorts : sorts_stably (isort : (T -> T -> Z) -> list T -> list T).
  Proof. split; [split; [apply isort_perm|]|]; intros; [by apply isort_sorted|by apply isort_stable]. Qed.
End isort.

Lemma Zltb_swo : swo Z.ltb.
Proof. split; [|split]; intros; lia. Qed.
Lemma Zeqb_matches : matches Z.ltb Z.eqb.
Proof. intros a b. lia. Qed.

Notation zrun := (run_ops 0%Z (fun _ _ n => 2 * n) (Some Z.eqb) isort isort (empty_vworld, [])).
Notation zreached := (v_reached 0%Z (fun _ _ n => 2 * n) (Some Z.eqb) isort isort).
