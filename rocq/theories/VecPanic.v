(** Proofs about CompactFunc with a panicking comparison (VecPanicSpec.v). *)
From Coq Require Import ZifyBool ZifyNat.
From Verif Require Import Base VecModel VecSpec VecProofs VecSteps VecPanicSpec.

Section proofs.
  Context {T : Type} (eq : T -> T -> option bool).
  Implicit Types (l r : list T) (x y : T) (n i k : nat).
  Notation dd := (dedup (says eq)).

  Lemma dedup_app (e : T -> T -> bool) : forall l r x, dedup e x (l ++ r) = dedup e x l ++ dedup e (List.last l x) r.
  Proof.
    induction l as [|y l IH]; intros r x; [done|]. cbn [app dedup]. rewrite (IH r y).
    assert (List.last (y :: l) x = List.last l y) as ->. { destruct l; [done|]. clear. revert t; induction l; intros t; [done|]. apply IHl. }
    by destruct (e y x).
  Qed.
  Lemma compacted_snoc (e : T -> T -> bool) l y x : compacted e (l ++ [y] ++ [x]) = compacted e (l ++ [y]) ++ (if e x y then [] else [x]).
  Proof.
    destruct l as [|z l]; cbn [app compacted]; [cbn; by destruct (e x y)|]. f_equal.
    change (l ++ [y; x]) with (l ++ [y] ++ [x]). rewrite (app_assoc l), dedup_app. f_equal. rewrite last_last. cbn. by destruct (e x y).
  Qed.
  Lemma compacted_take (e : T -> T -> bool) l n x y : l !! n = Some x -> l !! (n - 1) = Some y -> n <> 0 ->
    compacted e (take (S n) l) = compacted e (take n l) ++ (if e x y then [] else [x]).
  Proof.
    intros Hx Hy Hn. rewrite (take_S_r _ _ _ Hx). destruct n as [|n]; [done|]. replace (S n - 1) with n in Hy by lia.
    rewrite (take_S_r _ _ _ Hy), <- app_assoc. apply compacted_snoc.
  Qed.
  Lemma compacted_length (e : T -> T -> bool) (l : list T) : length (compacted e l) <= length l.
  Proof. destruct l as [|x l]; cbn; [lia|]. enough (H : forall (xs : list T) a, length (dedup e a xs) <= length xs) by (specialize (H l x); lia).
    induction xs as [|y xs IH]; intros a; cbn; [lia|]. specialize (IH y). destruct (e y a); cbn; lia. Qed.
  Lemma compacted_nonempty (e : T -> T -> bool) l n : n <> 0 -> l <> [] -> 1 <= length (compacted e (take n l)).
  Proof. destruct n, l; try done. cbn. lia. Qed.

  (** The elements in front of turn k. *)
  Definition before l k := compacted (says eq) (take k l) ++ drop (length (compacted (says eq) (take k l))) l.
  Lemma before_length l k : length (before l k) = length l.
  Proof.
    unfold before. rewrite app_length, drop_length. pose proof (compacted_length (says eq) (take k l)) as H.
    rewrite take_length in H. lia.
  Qed.
  Lemma before_lookup l k j : k <= j -> before l k !! j = l !! j.
  Proof.
    intros Hj. pose proof (compacted_length (says eq) (take k l)) as H. rewrite take_length in H.
    unfold before. rewrite lookup_app_r by lia. rewrite lookup_drop. f_equal. lia.
  Qed.
  (** The element in front of it: overwritten, if at all, by itself. *)
  Lemma before_same l k j : length (compacted (says eq) (take k l)) <= j -> before l k !! j = l !! j.
  Proof. intros Hj. unfold before. rewrite lookup_app_r by lia. rewrite lookup_drop. f_equal. lia. Qed.
  Lemma full_same l k : length (compacted (says eq) (take k l)) = k -> k <= length l -> before l k = l.
  Proof.
    intros Hk Hle. assert (H : forall (xs : list T), length (compacted (says eq) xs) = length xs -> compacted (says eq) xs = xs).
    { clear. intros [|x xs]; [done|]. cbn. intros [= H]. f_equal. revert x H. induction xs as [|y xs IH]; intros x; [done|]. cbn.
      assert (Hd : length (dedup (says eq) y xs) <= length xs).
      { pose proof (compacted_length (says eq) (y :: xs)) as H. cbn in H. lia. }
      destruct (says eq y x); cbn; intros H; [lia|]. f_equal. apply IH. lia. }
    unfold before. rewrite Hk, H; [apply take_drop|]. rewrite Hk, take_length. lia.
  Qed.
  Lemma before_prev l k : k <> 0 -> k <= length l -> before l k !! (k - 1) = l !! (k - 1).
  Proof.
    intros Hk Hle. pose proof (compacted_length (says eq) (take k l)) as H. rewrite take_length in H.
    destruct (decide (length (compacted (says eq) (take k l)) = k)) as [E|E]; [by rewrite full_same|]. apply before_same. lia.
  Qed.
  Lemma before_true l k x y : l !! k = Some x -> l !! (k - 1) = Some y -> k <> 0 -> eq x y = Some true ->
    compacted (says eq) (take (S k) l) = compacted (says eq) (take k l) /\ before l (S k) = before l k.
  Proof.
    intros Hx Hy Hk E. assert (H : compacted (says eq) (take (S k) l) = compacted (says eq) (take k l)).
    { rewrite (compacted_take _ _ _ _ _ Hx Hy Hk). unfold says at 2. rewrite E. by rewrite app_nil_r. }
    split; [done|]. unfold before. by rewrite H.
  Qed.
  Lemma before_false l k x y : l !! k = Some x -> l !! (k - 1) = Some y -> k <> 0 -> eq x y = Some false ->
    length (compacted (says eq) (take (S k) l)) = S (length (compacted (says eq) (take k l))) /\
    before l (S k) = <[length (compacted (says eq) (take k l)) := x]> (before l k).
  Proof.
    intros Hx Hy Hk E. assert (H : compacted (says eq) (take (S k) l) = compacted (says eq) (take k l) ++ [x]).
    { rewrite (compacted_take _ _ _ _ _ Hx Hy Hk). unfold says at 2. by rewrite E. }
    assert (Hl : length (compacted (says eq) (take (S k) l)) = S (length (compacted (says eq) (take k l)))).
    { rewrite H, app_length. cbn. lia. }
    split; [done|]. unfold before at 1. rewrite Hl, H. unfold before.
    pose proof (compacted_length (says eq) (take k l)) as Hc. rewrite take_length in Hc. pose proof (lookup_lt_Some _ _ _ Hx) as Hlt.
    set (c := compacted (says eq) (take k l)) in *.
    destruct (lookup_lt_is_Some_2 l (length c)) as [z Hz]; [lia|].
    rewrite (drop_S _ _ _ Hz). rewrite <- app_assoc. rewrite insert_app_r_alt by lia. by rewrite Nat.sub_diag.
  Qed.
  Lemma insert_here l k x : l !! k = Some x -> <[k := x]> (before l k) = before l k.
  Proof. intros Hx. apply list_insert_id. by rewrite before_lookup. Qed.

  Definition final l : end_ := Done (length (compacted (says eq) l)) (before l (length l)).
  (** What the loop ends with, from turn k. *)
  Definition ends l k (e : end_ (T := T)) : Prop :=
    (forall p, panics_at eq l p -> k <= p -> e = Stopped (before l p)) /\ (never_panics eq l -> e = final l).
  Lemma at_end l k : k = length l -> k <> 0 -> ends l k (Done (length (compacted (says eq) (take k l))) (before l k)).
  Proof.
    intros -> Hk. split.
    - intros p (_&(x&y&Hx&_)&_) Hp. apply lookup_lt_Some in Hx. lia.
    - intros _. unfold final. by rewrite take_ge by lia.
  Qed.
  Lemma at_panic l k x y : l !! k = Some x -> l !! (k - 1) = Some y -> k <> 0 -> eq x y = None -> ends l k (Stopped (before l k)).
  Proof.
    intros Hx Hy Hk E. split.
    - intros p (_&_&Hm) Hp. destruct (decide (p = k)) as [->|]; [done|]. destruct (Hm k x y); [lia|done..].
    - intros Hn. destruct (Hn k x y); [lia|done..].
  Qed.
  Lemma at_next l k e : (forall x y, l !! k = Some x -> l !! (k - 1) = Some y -> eq x y <> None) -> ends l (S k) e -> ends l k e.
  Proof.
    intros Hk [H1 H2]. split; [|done]. intros p Hp Hle. destruct (decide (p = k)) as [->|]; [|apply H1; [done|lia]].
    destruct Hp as (_&(x&y&Hx&Hy&E)&_). by destruct (Hk x y).
  Qed.

  Lemma loop22_ends l : forall n k, k + n = length l -> k <> 0 ->
    ends l k (loop22 eq n (length (compacted (says eq) (take k l))) k (before l k)).
  Proof.
    induction n as [|n IH]; intros k Hn Hk; [apply at_end; lia|]. cbn [loop22].
    rewrite before_lookup, before_prev by lia.
    destruct (lookup_lt_is_Some_2 l k) as [x Hx]; [lia|]. destruct (lookup_lt_is_Some_2 l (k - 1)) as [y Hy]; [lia|].
    rewrite Hx, Hy. destruct (eq x y) as [[]|] eqn:E.
    - apply at_next; [congruence|]. destruct (before_true _ _ _ _ Hx Hy Hk E) as [H1 H2]. rewrite <- H1, <- H2. apply IH; lia.
    - apply at_next; [congruence|]. destruct (before_false _ _ _ _ Hx Hy Hk E) as [H1 H2].
      replace (if Nat.eqb _ k then _ else _) with (before l (S k)); [rewrite <- H1; apply IH; lia|].
      rewrite H2. destruct (Nat.eqb_spec (length (compacted (says eq) (take k l))) k) as [->|]; [by apply insert_here|done].
    - by eapply at_panic.
  Qed.
  Lemma inner23_ends l : forall n k, k + n = length l -> k <> 0 ->
    ends l k (inner23 eq n (length (compacted (says eq) (take k l))) k (before l k)).
  Proof.
    induction n as [|n IH]; intros k Hn Hk; [apply at_end; lia|]. cbn [inner23].
    rewrite before_lookup, before_prev by lia.
    destruct (lookup_lt_is_Some_2 l k) as [x Hx]; [lia|]. destruct (lookup_lt_is_Some_2 l (k - 1)) as [y Hy]; [lia|].
    rewrite Hx, Hy. destruct (eq x y) as [[]|] eqn:E.
    - apply at_next; [congruence|]. destruct (before_true _ _ _ _ Hx Hy Hk E) as [H1 H2]. rewrite <- H1, <- H2. apply IH; lia.
    - apply at_next; [congruence|]. destruct (before_false _ _ _ _ Hx Hy Hk E) as [H1 H2]. rewrite <- H1, <- H2. apply IH; lia.
    - by eapply at_panic.
  Qed.
  Lemma outer23_ends l : forall n k, k + n = length l -> k <> 0 -> length (compacted (says eq) (take k l)) = k ->
    ends l k (outer23 eq n k l).
  Proof.
    induction n as [|n IH]; intros k Hn Hk Hc; pose proof (full_same l k Hc ltac:(lia)) as Hf.
    { pose proof (at_end l k ltac:(lia) Hk) as H. by rewrite Hc, Hf in H. }
    cbn [outer23].
    destruct (lookup_lt_is_Some_2 l k) as [x Hx]; [lia|]. destruct (lookup_lt_is_Some_2 l (k - 1)) as [y Hy]; [lia|].
    rewrite Hx, Hy. destruct (eq x y) as [[]|] eqn:E.
    - apply at_next; [congruence|]. destruct (before_true _ _ _ _ Hx Hy Hk E) as [H1 H2].
      pose proof (inner23_ends l n (S k) ltac:(lia) ltac:(lia)) as H. by rewrite H1, H2, Hc, Hf in H.
    - apply at_next; [congruence|]. destruct (before_false _ _ _ _ Hx Hy Hk E) as [H1 _]. apply IH; lia.
    - pose proof (at_panic _ _ _ _ Hx Hy Hk E) as H. by rewrite Hf in H.
  Qed.
  Lemma loop_ends g l : (forall p, panics_at eq l p -> compact_loop eq g l = Stopped (before l p)) /\
    (never_panics eq l -> compact_loop eq g l = final l).
  Proof.
    unfold compact_loop. destruct l as [|x l].
    { split; [|done]. intros p (_&(x&y&Hx&_)&_). done. }
    set (l' := x :: l). assert (Hl : 1 + (length l' - 1) = length l') by (cbn; lia).
    assert (He : ends l' 1 (if g then outer23 eq (length l' - 1) 1 l' else loop22 eq (length l' - 1) 1 1 l')).
    { destruct g; [by apply outer23_ends|]. by apply (loop22_ends l' (length l' - 1) 1). }
    destruct He as [H1 H2]. split; [|done]. intros p Hp. apply H1; [done|]. destruct Hp. lia.
  Qed.
  Lemma before_all l : before l (length l) = compacted (says eq) l ++ drop (length (compacted (says eq) l)) l.
  Proof. unfold before. by rewrite take_ge by lia. Qed.

  (** * The calls *)
  Context (zero : T).
  Notation d_of w v := (v_d (w_vec w v)).
  Lemma write_all w s l : wf w s -> length l = s_len s -> exists w', write_at s 0 l w = Ok (tt, w') /\
    contents w' s = l /\ w_vec w' = w_vec w /\ w_vn w' = w_vn w /\ (forall a, s_arr s <> Some a -> w_arr w' a = w_arr w a).
  Proof.
    intros Hwf Hl. pose proof (wf_len_cap _ _ Hwf) as Hlc.
    destruct (write_slice w s 0 l (s_len s) Hwf ltac:(lia) ltac:(lia)) as (w'&E&S1&C1&_).
    exists w'. split; [done|]. split.
    - transitivity (contents w' (mk_slice (s_arr s) (s_off s) (s_len s) (s_cap s))); [by destruct s|].
      rewrite C1. unfold splice. rewrite take_0. cbn [app]. by rewrite take_app_alt.
    - clear S1 C1. unfold write_at in E. destruct (s_arr s) as [a|] eqn:Ea.
      + injection E as <-. cbn. split_and!; [done..|]. intros b Hb. rewrite fn_lookup_insert_ne; [done|]. congruence.
      + destruct l; [|done]. by injection E as <-.
  Qed.
  Lemma panic_state g v w p : wf w (d_of w v) -> panics_at eq (vseq w v) p ->
    exists w', p_CompactFunc zero eq g v w = Some (Panicked w') /\ vseq w' v = before (vseq w v) p /\
      w_vec w' = w_vec w /\ w_vn w' = w_vn w /\ (forall a, s_arr (d_of w v) <> Some a -> w_arr w' a = w_arr w a).
  Proof.
    intros Hwf Hp. destruct (loop_ends g (vseq w v)) as [H _]. specialize (H p Hp).
    destruct (write_all w (d_of w v) (before (vseq w v) p) Hwf) as (w'&E&C&A1&A2&A3).
    { rewrite before_length. by apply contents_length. }
    exists w'. unfold p_CompactFunc. change (contents w (d_of w v)) with (vseq w v). rewrite H, E. split; [done|].
    split; [|done]. unfold vseq. by rewrite A1.
  Qed.
  Lemma same_result g v w : wf w (d_of w v) -> never_panics eq (vseq w v) ->
    exists w', p_CompactFunc zero eq g v w = Some (Returned w') /\ vseq w' v = compacted (says eq) (vseq w v) /\
      (forall u, u <> v -> w_vec w' u = w_vec w u) /\ w_vn w' = w_vn w /\ (forall a, s_arr (d_of w v) <> Some a -> w_arr w' a = w_arr w a).
  Proof.
    intros Hwf Hn. destruct (loop_ends g (vseq w v)) as [_ H]. specialize (H Hn).
    pose proof (contents_length w _ Hwf) as Hl. change (contents w (d_of w v)) with (vseq w v) in Hl.
    pose proof (compacted_length (says eq) (vseq w v)) as Hc. pose proof (wf_len_cap _ _ Hwf) as Hlc.
    unfold p_CompactFunc. change (contents w (d_of w v)) with (vseq w v). rewrite H. unfold final.
    rewrite before_length, before_all, take_app.
    set (c := compacted (says eq) (vseq w v)) in *. set (all := c ++ replicate (length (vseq w v) - length c) zero).
    assert (Ha : length all = s_len (d_of w v)) by (unfold all; rewrite app_length, replicate_length; lia).
    destruct (write_all w (d_of w v) all Hwf Ha) as (w1&E&C&A1&A2&A3). rewrite E. unfold set_d. eexists. split; [done|]. cbn.
    split; [|split; [|done]].
    - unfold vseq at 1. cbn. rewrite fn_lookup_insert. cbn.
      assert (Hsub : contents w1 (mk_slice (s_arr (d_of w v)) (s_off (d_of w v)) (length c) (s_cap (d_of w v))) = take (length c) all).
      { rewrite <- C. unfold contents. cbn. destruct (s_arr (d_of w v)); [|by rewrite take_nil]. rewrite take_take. f_equal. lia. }
      unfold contents in *. cbn in *. rewrite Hsub. unfold all. by rewrite take_app.
    - intros u Hu. rewrite fn_lookup_insert_ne by done. by rewrite A1.
  Qed.
End proofs.
