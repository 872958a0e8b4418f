(** Tables under a partial equivalence of keys. *)
From Verif Require Import Base GoMap GoMapSpec RwMapAnyModel RwMapAnySpec.

Section per.
  Context {K : Type} (eqb : K -> K -> bool) (P : per eqb).
  Lemma per_sym x y : eqb x y = eqb y x.
  Proof. destruct P as [S _]. destruct (eqb x y) eqn:H1, (eqb y x) eqn:H2; auto; [apply S in H1|apply S in H2]; congruence. Qed.
  Lemma per_trans x y z : eqb x y = true -> eqb y z = true -> eqb x z = true.
  Proof. destruct P as [_ T]. apply T. Qed.
  Lemma per_congr x y z : eqb x y = true -> eqb x z = eqb y z.
  Proof.
    intros H. destruct (eqb y z) eqn:H1; [by eapply per_trans|]. destruct (eqb x z) eqn:H2; auto. rewrite <- H1. symmetry.
    eapply per_trans; [|exact H2]. by rewrite per_sym.
  Qed.
  (** The same key, or one [==] to it. *)
  Definition sim (x y : K) : Prop := x = y \/ eqb x y = true.
  Lemma sim_congr x y z : sim x y -> eqb x z = eqb y z.
  Proof. intros [->|H]; [done|by apply per_congr]. Qed.
  Lemma sim_self x y : sim x y -> eqb x x = eqb y y.
  Proof. intros H. rewrite (sim_congr _ _ x H), per_sym. by apply sim_congr. Qed.

  Section table.
    Context {A : Type}.
    Implicit Types (t : list (K * A)) (k : K) (a : A).
    Notation find := (mlookup eqb).
    Fixpoint kok t : Prop :=
      match t with [] => True | p :: t => (forall q, q ∈ t -> eqb p.1 q.1 = false) /\ kok t end.
    Lemma kok_perm t t' : t ≡ₚ t' -> kok t -> kok t'.
    Proof.
      induction 1 as [|p l l' Hp IH|p q l|l1 l2 l3 H1 IH1 H2 IH2]; cbn; auto.
      - intros [Ha Hb]. split; auto. intros e He. apply Ha. by rewrite Hp.
      - intros (Ha & Hb & Hc). split; [|split; [|done]].
        + intros e [->|He]%elem_of_cons; auto. rewrite per_sym. apply Ha. left.
        + intros e He. apply Ha. by right.
    Qed.
    Lemma find_elem t k a : kok t -> find t k = Some a <-> exists k', (k', a) ∈ t /\ eqb k' k = true.
    Proof.
      induction t as [|[k1 a1] t IH]; cbn.
      - intros _. split; [done|]. intros (k' & H & _). by apply elem_of_nil in H.
      - intros [Ha Hb]. destruct (eqb k1 k) eqn:H1.
        + split.
          * intros [= ->]. exists k1. split; [left|done].
          * intros (k' & [H|H]%elem_of_cons & H2); [by simplify_eq|]. specialize (Ha _ H). cbn in Ha.
            rewrite per_sym in H2. rewrite (per_trans _ _ _ H1 H2) in Ha. done.
        + rewrite IH by done. split; intros (k' & H & H2); exists k'; (split; [|done]); [by right|].
          apply elem_of_cons in H as [H|H]; [|done]. simplify_eq. congruence.
    Qed.
    Lemma find_none t k : find t k = None <-> forall p, p ∈ t -> eqb p.1 k = false.
    Proof.
      induction t as [|[k1 a1] t IH]; cbn; [split; [|done]; intros _ p Hp; by apply elem_of_nil in Hp|]. destruct (eqb k1 k) eqn:H1.
      - split; [done|]. intros H. specialize (H (k1, a1) ltac:(left)). cbn in H. congruence.
      - rewrite IH. split; [intros H p [->|Hp]%elem_of_cons; auto|]. intros H p Hp. apply H. by right.
    Qed.
    Lemma find_perm t t' k : kok t -> t ≡ₚ t' -> find t' k = find t k.
    Proof.
      intros Hk Hp. destruct (find t k) as [a|] eqn:E.
      - apply find_elem in E as (k'&H&H2); [|done]. apply find_elem; [by eapply kok_perm|]. exists k'. split; [by rewrite <- Hp|done].
      - apply find_none. intros p H. rewrite <- Hp in H. by eapply (proj1 (find_none _ _) E).
    Qed.
    Lemma find_sim t k k' : sim k k' -> find t k = find t k'.
    Proof.
      intros H. induction t as [|[k1 a1] t IH]; [done|]. cbn. rewrite IH. rewrite (per_sym k1 k), (per_sym k1 k'), (sim_congr _ _ k1 H). done.
    Qed.
    Lemma find_split t k a : find t k = Some a -> exists k' t', t ≡ₚ (k', a) :: t' /\ eqb k' k = true.
    Proof.
      induction t as [|[k1 a1] t IH]; cbn; [done|]. destruct (eqb k1 k) eqn:E.
      - intros [= <-]. by exists k1, t.
      - intros H. destruct (IH H) as (k'&t'&Hp&He). exists k', ((k1, a1) :: t'). split; [|done]. rewrite Hp. constructor.
    Qed.
    Lemma mdel_split t k a : find t k = Some a -> exists k', t ≡ₚ (k', a) :: mdel eqb t k /\ eqb k' k = true.
    Proof.
      induction t as [|[k1 a1] t IH]; cbn; [done|]. destruct (eqb k1 k) eqn:E.
      - intros [= <-]. by exists k1.
      - intros H. destruct (IH H) as (k'&Hp&He). exists k'. split; [|done]. rewrite Hp at 1. constructor.
    Qed.
    Lemma mdel_none t k : find t k = None -> mdel eqb t k = t.
    Proof. induction t as [|[k1 a1] t IH]; cbn; [done|]. destruct (eqb k1 k); [done|]. intros H. by rewrite IH. Qed.
    Lemma mset_none upd t k a : find t k = None -> mset eqb upd t k a = t ++ [(k, a)].
    Proof. induction t as [|[k1 a1] t IH]; cbn; [done|]. destruct (eqb k1 k); [done|]. intros H. by rewrite IH. Qed.
    Lemma mset_split upd t k a b : find t k = Some a -> exists k' k2 t', t ≡ₚ (k', a) :: t' /\ eqb k' k = true /\
      mset eqb upd t k b ≡ₚ (k2, b) :: t' /\ eqb k2 k = true.
    Proof.
      induction t as [|[k1 a1] t IH]; cbn; [done|]. destruct (eqb k1 k) eqn:E.
      - intros [= <-]. exists k1, (if upd then k else k1), t. split_and!; try done. destruct upd; [|done].
        eapply per_trans; [|exact E]. by rewrite per_sym.
      - intros H. destruct (IH H) as (k'&k2&t'&Hp&He&Hp2&He2). exists k', k2, ((k1, a1) :: t').
        split; [by rewrite Hp; constructor|]. split; [done|]. split; [rewrite Hp2; constructor|done].
    Qed.
    Lemma kok_cons t k a : kok t -> find t k = None -> kok ((k, a) :: t).
    Proof. intros Hk Hn. split; [|done]. intros q Hq. cbn. rewrite per_sym. by apply (proj1 (find_none _ _) Hn). Qed.
    Lemma kok_sub t t' : t' `sublist_of` t -> kok t -> kok t'.
    Proof.
      induction 1 as [|p l l' Hs IH|p l l' Hs IH]; cbn; [done| |]; intros [H1 H2]; [|auto]. split; [|auto].
      intros q Hq. apply H1. clear -Hs Hq. induction Hs as [|a m m' Hs IH|a m m' Hs IH]; [done| |right; auto].
      apply elem_of_cons in Hq as [->|Hq]; [left|right; auto].
    Qed.
    Lemma kok_apart t : kok t <-> apart eqb t.
    Proof.
      induction t as [|p t IH]; cbn; [split; [intros _ i j p q H|]; done|]. rewrite IH. split.
      - intros [H1 H2] i j a b Hi Hj Hne. destruct i as [|i], j as [|j]; cbn in *; simplify_eq.
        + apply H1. by eapply elem_of_list_lookup_2.
        + rewrite per_sym. apply H1. by eapply elem_of_list_lookup_2.
        + eapply H2; [done..|congruence].
      - intros H. split.
        + intros q [j Hj]%elem_of_list_lookup. by apply (H 0 (S j) p q).
        + intros i j a b Hi Hj Hne. apply (H (S i) (S j)); [done..|congruence].
    Qed.
  End table.

  (** * How a list of pairs changes *)
  Context {V : Type}.
  Implicit Types (l L : list (K * V)) (v : V) (k : K).
  Notation find := (mlookup eqb).
  Notation odds := (List.filter (odd (V := V) eqb)).
  Lemma filter_perm l l' : l ≡ₚ l' -> odds l ≡ₚ odds l'.
  Proof.
    induction 1 as [|p a b Hp IH|p q a|a b c H1 IH1 H2 IH2]; cbn; [done| | |].
    - destruct (odd eqb p); [by rewrite IH|done].
    - destruct (odd eqb p), (odd eqb q); try done. constructor.
    - by rewrite IH1.
  Qed.
  Lemma odds_cons k v l : odds ((k, v) :: l) = if eqb k k then odds l else (k, v) :: odds l.
  Proof. cbn. unfold odd at 1. cbn. by destruct (eqb k k). Qed.
  Definition is_found (o : option V) : nat := match o with Some _ => 1 | None => 0 end.
  Definition put l k v l' : Prop :=
    kok l' /\ (forall j, find l' j = if eqb k j then Some v else find l j) /\
    odds l' ≡ₚ (if eqb k k then odds l else (k, v) :: odds l) /\ length l' + is_found (find l k) = S (length l).
  Definition dropped l k l' : Prop :=
    kok l' /\ (forall j, find l' j = if eqb k j then None else find l j) /\
    odds l' ≡ₚ odds l /\ length l' + is_found (find l k) = length l.
  Lemma put_add l k k0 v l' : kok l -> find l k = None -> sim k0 k -> l' ≡ₚ (k0, v) :: l -> put l k v l'.
  Proof.
    intros Hk Hn Hs Hp. assert (Hk2 : kok ((k0, v) :: l)) by (apply kok_cons; [done|]; by rewrite (find_sim _ _ _ Hs)).
    split; [by eapply kok_perm; [symmetry|]|]. split; [|split].
    - intros j. rewrite (find_perm _ _ j Hk2 (symmetry Hp)). cbn. by rewrite (sim_congr _ _ j Hs).
    - rewrite (filter_perm _ _ Hp). rewrite odds_cons, (sim_self _ _ Hs).
      destruct (eqb k k) eqn:E; [done|]. destruct Hs as [->|Hs]; [done|].
      rewrite (per_trans k k0 k) in E; [done|by rewrite per_sym|done].
    - rewrite Hn, Hp. cbn. lia.
  Qed.
  Lemma found_self l k v : find l k = Some v -> eqb k k = true.
  Proof.
    intros H. apply find_split in H as (k'&t'&_&E). eapply per_trans; [|exact E]. by rewrite per_sym.
  Qed.
  Lemma put_upd l k k0 k2 w v R l' : kok l -> l ≡ₚ (k0, w) :: R -> eqb k0 k = true -> eqb k2 k = true -> l' ≡ₚ (k2, v) :: R -> put l k v l'.
  Proof.
    intros Hk Hp0 E0 E2 Hp. pose proof (kok_perm _ _ Hp0 Hk) as Hk0. destruct Hk0 as [Hk1 HkR].
    assert (E02 : eqb k0 k2 = true) by (eapply per_trans; [exact E0|]; by rewrite per_sym).
    assert (Hk2 : kok ((k2, v) :: R)).
    { split; [|done]. intros q Hq. cbn. rewrite <- (per_congr _ _ q.1 E02). by apply (Hk1 q). }
    assert (Ekk : eqb k k = true) by (eapply per_trans; [|exact E0]; by rewrite per_sym).
    assert (Hf : find l k = Some w).
    { rewrite (find_perm _ _ k (kok_perm _ _ Hp0 Hk) (symmetry Hp0)). cbn. by rewrite E0. }
    split; [by eapply kok_perm; [symmetry|]|]. split; [|split].
    - intros j. rewrite (find_perm _ _ j Hk2 (symmetry Hp)). rewrite (find_perm _ _ j (kok_perm _ _ Hp0 Hk) (symmetry Hp0)).
      cbn. rewrite (per_congr _ _ j E2), (per_congr _ _ j E0). by destruct (eqb k j).
    - rewrite Ekk. rewrite (filter_perm _ _ Hp), (filter_perm _ _ Hp0). rewrite !odds_cons.
      rewrite (sim_self k2 k), (sim_self k0 k), Ekk; [done|by right..].
    - rewrite Hf, Hp, Hp0. cbn. lia.
  Qed.
  Lemma drop_del l k k0 w l' : kok l -> l ≡ₚ (k0, w) :: l' -> eqb k0 k = true -> dropped l k l'.
  Proof.
    intros Hk Hp0 E0. pose proof (kok_perm _ _ Hp0 Hk) as Hk0. pose proof Hk0 as [Hk1 HkR].
    assert (Ekk : eqb k k = true) by (eapply per_trans; [|exact E0]; by rewrite per_sym).
    split; [done|]. split; [|split].
    - intros j. rewrite (find_perm _ _ j Hk0 (symmetry Hp0)). cbn. rewrite (per_congr _ _ j E0).
      destruct (eqb k j) eqn:E; [|done]. apply find_none. intros p Hp. specialize (Hk1 p Hp). cbn in Hk1.
      rewrite (per_sym p.1). rewrite <- (per_congr k j p.1 E), <- (per_congr k0 k p.1 E0). done.
    - rewrite (filter_perm _ _ Hp0). rewrite odds_cons, (sim_self k0 k), Ekk; [done|by right].
    - rewrite (find_perm _ _ k Hk0 (symmetry Hp0)). cbn. rewrite E0, Hp0. cbn. lia.
  Qed.
  Lemma drop_none l k l' : kok l -> find l k = None -> l' ≡ₚ l -> dropped l k l'.
  Proof.
    intros Hk Hn Hp. split; [by eapply kok_perm; [symmetry|]|]. split; [|split].
    - intros j. rewrite (find_perm _ _ j Hk (symmetry Hp)). destruct (eqb k j) eqn:E; [|done].
      rewrite (find_sim l j k); [done|]. right. by rewrite per_sym.
    - by apply filter_perm.
    - rewrite Hn, Hp. cbn. lia.
  Qed.
  Lemma alike_perm l l' : kok l -> l ≡ₚ l' -> alike eqb l l'.
  Proof. intros Hk Hp. split; [intros k; symmetry; by apply find_perm|]. split; [by apply filter_perm|by rewrite Hp]. Qed.
  Lemma mset_put upd l k v : kok l -> put l k v (mset eqb upd l k v).
  Proof.
    intros Hk. destruct (find l k) as [w|] eqn:E.
    - destruct (mset_split upd l k w v E) as (k1&k2&t'&Hp&E1&Hp2&E2). by eapply put_upd.
    - eapply put_add; [done..|by left|]. rewrite mset_none by done. by rewrite Permutation_app_comm.
  Qed.
  Lemma mdel_dropped l k : kok l -> dropped l k (mdel eqb l k).
  Proof.
    intros Hk. destruct (find l k) as [w|] eqn:E.
    - destruct (mdel_split l k w E) as (k1&Hp&E1). by eapply drop_del.
    - apply drop_none; [done..|]. by rewrite mdel_none.
  Qed.
  Lemma put_alike L l k v L' l' : alike eqb L l -> put L k v L' -> put l k v l' -> alike eqb L' l'.
  Proof.
    intros (A1&A2&A3) (_&B1&B2&B3) (_&C1&C2&C3). split; [|split].
    - intros j. by rewrite B1, C1, A1.
    - rewrite B2, C2. destruct (eqb k k); [done|]. by rewrite A2.
    - rewrite A1 in B3. lia.
  Qed.
  Lemma dropped_alike L l k L' l' : alike eqb L l -> dropped L k L' -> dropped l k l' -> alike eqb L' l'.
  Proof.
    intros (A1&A2&A3) (_&B1&B2&B3) (_&C1&C2&C3). split; [|split].
    - intros j. by rewrite B1, C1, A1.
    - by rewrite B2, C2.
    - rewrite A1 in B3. lia.
  Qed.
End per.
