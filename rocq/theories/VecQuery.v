From Coq Require Import ZifyBool ZifyNat.
From Verif Require Import Base VecModel VecSpec VecProofs VecSteps.

Section query.
  Context {T : Type}.
  Notation W := (vworld T).
  Implicit Types (l : list T) (lt eq : T -> T -> bool).

  Lemma swo_left lt a b t : swo lt -> lt a t = true -> lt a b = false -> lt b t = true.
  Proof.
    intros (S1&S2&S3) H1 H2. destruct (lt b t) eqn:E; [done|exfalso].
    destruct (lt t b) eqn:E2. { rewrite (S2 a t b) in H2; done. }
    destruct (lt b a) eqn:E3. { rewrite (S2 b a t) in E; done. }
    destruct (S3 a b t); congruence.
  Qed.
  Lemma swo_right lt a b t : swo lt -> lt a t = false -> lt b a = false -> lt b t = false.
  Proof.
    intros (S1&S2&S3) H1 H2. destruct (lt b t) eqn:E; [exfalso|done].
    destruct (lt t a) eqn:E2. { rewrite (S2 b t a) in H2; done. }
    destruct (lt a b) eqn:E3. { rewrite (S2 a b t) in H1; done. }
    destruct (S3 b a t); congruence.
  Qed.
  Lemma three_pure lt eq a b : three_way (pure_cmp lt) (pure_cmp eq) a b = Ok (three lt eq a b).
  Proof. unfold three_way, three, pure_cmp. cbn. by destruct (lt a b); cbn. Qed.

  Lemma binarySearch_ok (f : T -> bool) (cmp : T -> res Z) l :
    (forall x, exists c, cmp x = Ok c /\ (c <? 0)%Z = f x) ->
    (forall i j x y, i <= j -> l !! i = Some x -> l !! j = Some y -> f y = true -> f x = true) ->
    forall fuel i j, j - i < fuel -> i <= j -> j <= length l ->
    (forall k x, k < i -> l !! k = Some x -> f x = true) -> (forall k x, j <= k -> l !! k = Some x -> f x = false) ->
    exists r, binarySearch fuel cmp l i j = Ok r /\ r <= length l /\
      (forall k x, k < r -> l !! k = Some x -> f x = true) /\ (forall k x, r <= k -> l !! k = Some x -> f x = false).
  Proof.
    intros Hc Hm. induction fuel as [|fuel IH]; intros i j Hf Hij Hj H1 H2; [lia|]. cbn [binarySearch].
    destruct (Nat.ltb_spec i j) as [Hlt|Hge].
    - assert (Hh : i <= Nat.div2 (i + j) < j).
      { rewrite Nat.div2_div. split; [apply Nat.div_le_lower_bound; lia|apply Nat.div_lt_upper_bound; lia]. }
      set (h := Nat.div2 (i + j)) in *. destruct (lookup_lt_is_Some_2 l h) as [x Hx]; [lia|]. rewrite Hx.
      destruct (Hc x) as (c&E&Ec). rewrite E. cbn [rbind]. rewrite Ec. destruct (f x) eqn:Ef.
      + apply IH; [lia..| |done]. intros k y Hk Hy. eapply (Hm k h); [lia|done..].
      + apply IH; [lia..|done|]. intros k y Hk Hy. destruct (f y) eqn:Ey; [|done].
        rewrite (Hm h k x y) in Ef; [done|lia|done..].
    - exists i. split; [done|]. split; [lia|]. split; [done|]. intros k x Hk. apply H2. lia.
  Qed.

  Lemma BinarySearchFunc_ok lt eq l t : swo lt -> all_sorted lt l ->
    exists i b, s_BinarySearchFunc l (fun x => three_way (pure_cmp lt) (pure_cmp eq) x t) = Ok (Z.of_nat i, b) /\
      i <= length l /\
      (forall k x, k < i -> l !! k = Some x -> lt x t = true) /\
      (forall k x, i <= k -> l !! k = Some x -> lt x t = false) /\
      (b = true <-> exists x, l !! i = Some x /\ eq x t = true).
  Proof.
    intros Hs Ha. destruct (binarySearch_ok (fun x => lt x t) (fun x => three_way (pure_cmp lt) (pure_cmp eq) x t) l) with (fuel := S (length l)) (i := 0) (j := length l)
      as (r&E&Hr&H1&H2); [| |lia..| | |].
    - intros x. exists (three lt eq x t). split; [apply three_pure|]. unfold three. by destruct (lt x t), (eq x t).
    - intros i j x y Hij Hx Hy Hlt. destruct (decide (i = j)) as [->|]; [congruence|].
      eapply swo_left; [done|exact Hlt|]. eapply Ha; [|done..]. lia.
    - lia.
    - intros k x Hk Hx. apply lookup_lt_Some in Hx. lia.
    - unfold s_BinarySearchFunc. rewrite E. cbn [rbind]. destruct (l !! r) as [x|] eqn:Ex.
      + rewrite three_pure. cbn [rbind]. eexists r, _. split; [reflexivity|]. split; [done|]. split; [done|]. split; [done|].
        unfold three. rewrite (H2 r x) by done. rewrite Ex. split.
        * intros H. exists x. split; [done|]. by destruct (eq x t).
        * intros (y&[= ->]&->). done.
      + exists r, false. split; [done|]. split; [done|]. split; [done|]. split; [done|]. rewrite Ex. split; [done|]. by intros (x&?&?).
  Qed.

  Lemma indexFunc_ok (p : T -> bool) : forall l i, (0 <= i)%Z -> exists r, indexFunc (fun x => Ok (p x)) i l = Ok r /\
    ((r = -1 /\ forall x, x ∈ l -> p x = false) \/
     (i <= r /\ (exists x, l !! Z.to_nat (r - i) = Some x /\ p x = true) /\ forall k x, (k < Z.to_nat (r - i))%nat -> l !! k = Some x -> p x = false))%Z.
  Proof.
    induction l as [|x l IH]; intros i Hi; cbn.
    - eexists. split; [done|]. left. split; [done|]. intros x Hx. by apply elem_of_nil in Hx.
    - destruct (p x) eqn:Ep.
      + exists i. split; [done|]. right. rewrite Z.sub_diag. split; [lia|]. split; [exists x; done|]. intros k y Hk. cbn in Hk. lia.
      + destruct (IH (i + 1)%Z ltac:(lia)) as (r&E&[[-> Hn]|(Hr&(y&Hy&Hpy)&Hk)]); exists r || exists (-1)%Z; (split; [done|]).
        * left. split; [done|]. intros y Hy. apply elem_of_cons in Hy as [->|Hy]; auto.
        * right. replace (Z.to_nat (r - i)) with (S (Z.to_nat (r - (i + 1)))) by lia. split; [lia|]. split; [exists y; done|].
          intros k z Hlt Hz. destruct k; [cbn in Hz; congruence|]. cbn in Hz. eapply Hk; [|done]. lia.
  Qed.
  Lemma indexFunc_first p l : exists r, indexFunc (fun x => Ok (p x)) 0 l = Ok r /\ first_hit p l r.
  Proof.
    destruct (indexFunc_ok p l 0%Z ltac:(lia)) as (r&E&H). exists r. split; [done|]. unfold first_hit.
    rewrite Z.sub_0_r in H. destruct H as [?|(?&?&?)]; auto.
  Qed.
  Lemma containsFunc_ok p l : exists b, containsFunc (fun x => Ok (p x)) l = Ok b /\ (b = true <-> exists x, x ∈ l /\ p x = true).
  Proof.
    unfold containsFunc. destruct (indexFunc_first p l) as (r&->&H). cbn. eexists. split; [done|].
    destruct H as [[-> H]|(H0&(x&Hx&Hp)&_)]; split; try done.
    - intros (x&Hx&Hp). rewrite H in Hp; done.
    - intros _. exists x. split; [by eapply elem_of_list_lookup_2|done].
    - intros _. lia.
  Qed.
  Lemma hits_spec (p : T -> bool) : forall l i n, n ∈ hits p i l <-> (i <= n)%Z /\ exists x, l !! Z.to_nat (n - i) = Some x /\ p x = true.
  Proof.
    induction l as [|x l IH]; intros i n; cbn.
    - split; [intros H; by apply elem_of_nil in H|]. intros (?&y&?&?). done.
    - assert (H : n ∈ hits p (i + 1) l <-> (i < n)%Z /\ exists y, (x :: l) !! Z.to_nat (n - i) = Some y /\ p y = true).
      { rewrite IH. split; intros (Hn&y&Hy&Hp); (split; [lia|]); exists y; (split; [|done]).
        - replace (Z.to_nat (n - i)) with (S (Z.to_nat (n - (i + 1)))) by lia. done.
        - replace (Z.to_nat (n - i)) with (S (Z.to_nat (n - (i + 1)))) in Hy by lia. done. }
      destruct (p x) eqn:Ep; rewrite ?elem_of_cons, H.
      + split.
        * intros [->|[? ?]]; [|split; [lia|done]]. rewrite Z.sub_diag. split; [lia|]. exists x. done.
        * intros [Hn Hex]. destruct (decide (n = i)); [auto|]. right. split; [lia|done].
      + split.
        * intros [? ?]; split; [lia|done].
        * intros [Hn (y&Hy&Hp)]. split; [|eauto]. destruct (decide (n = i)) as [->|]; [|lia].
          rewrite Z.sub_diag in Hy. change (Some x = Some y) in Hy. congruence.
  Qed.
  Lemma hits_sorted (p : T -> bool) : forall l i, StronglySorted Z.lt (hits p i l).
  Proof.
    induction l as [|x l IH]; intros i; cbn; [constructor|]. destruct (p x); [|done]. constructor; [done|].
    apply Forall_forall. intros n Hn. apply hits_spec in Hn. lia.
  Qed.
  Lemma range_ok {B} (f : Z -> T -> B -> bool * B) (w : W) v : inv w -> v < w_vn w -> forall fuel i acc, (0 <= i)%Z ->
    length (vseq w v) - Z.to_nat i <= fuel ->
    range_loop fuel v (fun i x acc => ret (f i x acc)) i acc w = Ok (range_spec f i (drop (Z.to_nat i) (vseq w v)) acc, w).
  Proof.
    intros Hi Hv. pose proof (len_l w v Hi Hv) as HL. induction fuel as [|fuel IH]; intros i acc H0 Hf.
    - cbn [range_loop]. unfold bind. rewrite Len_eq. rewrite <- HL. replace (i <? _)%Z with false by lia. rewrite drop_ge by lia. done.
    - cbn [range_loop]. unfold bind at 1. rewrite Len_eq. rewrite <- HL. destruct (Z.ltb_spec i (Z.of_nat (length (vseq w v)))) as [H|H].
      + unfold bind at 1, get_d. unfold bind at 1, idx.
        destruct (getZ_in w (v_d (w_vec w v)) i) as (x&E1&E2); [by apply Hi|lia|]. rewrite E1. unfold bind, ret.
        change (contents w (v_d (w_vec w v))) with (vseq w v) in E2. rewrite (drop_S _ _ _ E2). cbn [range_spec].
        destruct (fst (f i x acc)); [|done]. rewrite IH by lia. replace (Z.to_nat (i + 1)) with (S (Z.to_nat i)) by lia. done.
      + rewrite drop_ge by lia. done.
  Qed.
  Lemma range_hits (p : T -> bool) : forall l i acc,
    range_spec (fun i x acc => (true, if p x then acc ++ [i] else acc)) i l acc = acc ++ hits p i l.
  Proof. induction l as [|x l IH]; intros i acc; cbn; [by rewrite app_nil_r|]. rewrite IH. destruct (p x); [by rewrite <- app_assoc|done]. Qed.

  Lemma maxFunc_ok lt eq : swo lt -> matches lt eq -> forall l m, exists r,
    maxFunc (three_way (pure_cmp lt) (pure_cmp eq)) m l = Ok r /\ r ∈ m :: l /\ (forall x, x ∈ m :: l -> lt r x = false).
  Proof.
    intros Hs Hm. induction l as [|x l IH]; intros m; cbn [maxFunc].
    - exists m. split; [done|]. split; [left|]. intros x Hx. apply elem_of_list_singleton in Hx as ->. apply Hs.
    - rewrite three_pure. cbn [rbind]. destruct (three lt eq x m >? 0)%Z eqn:E.
      + destruct (IH x) as (r&->&Hin&Hr). exists r. split; [done|]. split; [by right|].
        intros y Hy. apply elem_of_cons in Hy as [->|Hy]; [|by apply Hr].
        unfold three in E. rewrite Hm in E. assert (lt m x = true) by (by destruct (lt x m), (lt m x)).
        destruct (lt r m) eqn:Erm; [|done]. destruct Hs as (S1&S2&S3). rewrite <- (Hr x ltac:(left)). symmetry. by apply (S2 r m x).
      + destruct (IH m) as (r&->&Hin&Hr). exists r. split; [done|]. split; [apply elem_of_cons in Hin as [->|Hin]; [left|by right; right]|].
        intros y Hy. apply elem_of_cons in Hy as [->|Hy]; [apply Hr; left|]. apply elem_of_cons in Hy as [->|Hy]; [|apply Hr; by right].
        assert (lt m x = false). { unfold three in E. rewrite Hm in E. destruct Hs as (S1&S2&_). destruct (lt x m) eqn:E1, (lt m x) eqn:E2; try done. rewrite <- (S1 x). symmetry. by apply (S2 x m x). }
        eapply swo_right; [done|exact H|]. apply Hr. left.
  Qed.
  Lemma minFunc_ok lt eq : swo lt -> forall l m, exists r,
    minFunc (three_way (pure_cmp lt) (pure_cmp eq)) m l = Ok r /\ r ∈ m :: l /\ (forall x, x ∈ m :: l -> lt x r = false).
  Proof.
    intros Hs. induction l as [|x l IH]; intros m; cbn [minFunc].
    - exists m. split; [done|]. split; [left|]. intros x Hx. apply elem_of_list_singleton in Hx as ->. apply Hs.
    - rewrite three_pure. cbn [rbind]. destruct (three lt eq x m <? 0)%Z eqn:E.
      + destruct (IH x) as (r&->&Hin&Hr). exists r. split; [done|]. split; [by right|].
        intros y Hy. apply elem_of_cons in Hy as [->|Hy]; [|by apply Hr].
        assert (lt x m = true) by (unfold three in E; destruct (lt x m); [done|by destruct (eq x m)]).
        destruct (lt m r) eqn:Erm; [|done]. destruct Hs as (S1&S2&S3). rewrite <- (Hr x ltac:(left)). symmetry. by apply (S2 x m r).
      + destruct (IH m) as (r&->&Hin&Hr). exists r. split; [done|]. split; [apply elem_of_cons in Hin as [->|Hin]; [left|by right; right]|].
        intros y Hy. apply elem_of_cons in Hy as [->|Hy]; [apply Hr; left|]. apply elem_of_cons in Hy as [->|Hy]; [|apply Hr; by right].
        assert (lt x m = false) by (unfold three in E; by destruct (lt x m)).
        eapply swo_right; [done| |exact H]. apply Hr. left.
  Qed.
  Lemma isSorted_ok lt eq : forall l, exists b,
    isSortedRev (three_way (pure_cmp lt) (pure_cmp eq)) (rev l) = Ok b /\ (b = true <-> adjacent_sorted lt l).
  Proof.
    assert (H : forall r, exists b, isSortedRev (three_way (pure_cmp lt) (pure_cmp eq)) r = Ok b /\
      (b = true <-> forall i x y, r !! i = Some x -> r !! S i = Some y -> lt x y = false)).
    { induction r as [|x r IH]; cbn [isSortedRev]; [exists true; split; [done|]; split; [done|done]|].
      destruct r as [|y r]; [exists true; split; [done|]; split; [intros _ i ? ?; by destruct i|done]|].
      rewrite three_pure. cbn [rbind]. destruct (three lt eq x y <? 0)%Z eqn:E.
      - exists false. split; [done|]. split; [done|]. intros H. specialize (H 0 x y eq_refl eq_refl). unfold three in E. rewrite H in E. by destruct (eq x y).
      - destruct IH as (b&Eb&Hb). exists b. split; [done|]. rewrite Hb. split; intros H.
        + intros [|i] a c Ha Hc; [cbn in Ha, Hc; simplify_eq|by apply (H i)]. unfold three in E. by destruct (lt a c).
        + intros i a c Ha Hc. by apply (H (S i)). }
    intros l. destruct (H (rev l)) as (b&E&Hb). exists b. split; [done|]. rewrite Hb. unfold adjacent_sorted. rewrite rev_alt. change (rev_append l []) with (reverse l).
    split; intros H1 i x y Hx Hy.
    - pose proof (lookup_lt_Some _ _ _ Hy) as Hl.
      apply (H1 (length l - S (S i)) y x).
      + rewrite reverse_lookup by lia. replace (length l - S (length l - S (S i))) with (S i) by lia. done.
      + rewrite reverse_lookup by lia. replace (length l - S (S (length l - S (S i)))) with i by lia. done.
    - pose proof (lookup_lt_Some _ _ _ Hy) as Hl. rewrite reverse_length in Hl.
      rewrite reverse_lookup in Hx, Hy by lia. apply (H1 (length l - S (S i)) y x); [done|].
      rewrite <- Hx. f_equal. lia.
  Qed.
  Lemma adjacent_all lt l : swo lt -> adjacent_sorted lt l -> all_sorted lt l.
  Proof.
    intros Hs Ha i j x y Hij. revert y. induction j as [|j IH]; intros y Hx Hy; [lia|].
    destruct (decide (i = j)) as [->|]; [by eapply Ha|].
    destruct (lookup_lt_is_Some_2 l j) as [z Hz]. { apply lookup_lt_Some in Hy. lia. }
    pose proof (IH ltac:(lia) z Hx Hz) as H1. pose proof (Ha j z y Hz Hy) as H2.
    eapply (swo_right lt z y x); done.
  Qed.
  Lemma compareFunc_ok lt eq : forall l1 l2, exists c,
    compareFunc (three_way (pure_cmp lt) (pure_cmp eq)) l1 l2 = Ok c /\ lex lt eq l1 l2 c.
  Proof.
    induction l1 as [|x l1 IH]; intros [|y l2]; cbn [compareFunc].
    - eexists. split; [done|constructor].
    - eexists. split; [done|constructor].
    - eexists. split; [done|constructor].
    - rewrite three_pure. cbn [rbind]. unfold three. destruct (lt x y) eqn:El; [cbn; eexists; split; [done|by constructor]|].
      destruct (eq x y) eqn:Ee; cbn; [|eexists; split; [done|by constructor]].
      destruct (IH l2) as (c&E&Hc). exists c. split; [done|by constructor].
  Qed.
  Lemma lex_det lt eq l1 l2 c c' : lex lt eq l1 l2 c -> lex lt eq l1 l2 c' -> c = c'.
  Proof. intros H. revert c'. induction H; intros c'; inversion 1; subst; try congruence; auto. Qed.
  Lemma equalFunc_ok eq : forall l1 l2, exists b, s_EqualFunc (pure_cmp eq) l1 l2 = Ok b /\ (b = true <-> pointwise eq l1 l2).
  Proof.
    intros l1 l2. unfold s_EqualFunc, pointwise. destruct (Nat.eqb_spec (length l1) (length l2)) as [HL|HL].
    2: { exists false. split; [done|]. split; [done|]. by intros [? ?]. }
    cut (exists b, equalFunc (pure_cmp eq) l1 l2 = Ok b /\ (b = true <-> forall i x y, l1 !! i = Some x -> l2 !! i = Some y -> eq x y = true)).
    { intros (b&E&H). exists b. split; [done|]. rewrite H. split; [done|]. by intros [_ ?]. }
    revert l2 HL. induction l1 as [|x l1 IH]; intros [|y l2] HL; try done; cbn [equalFunc].
    { exists true. split; [done|]. split; [|done]. intros _ i x y H. done. }
    unfold pure_cmp at 1. cbn [rbind]. destruct (eq x y) eqn:E.
    - destruct (IH l2) as (b&Eb&Hb); [cbn in HL; lia|]. exists b. split; [done|]. rewrite Hb. split; intros H.
      + intros [|i] a c Ha Hc; [cbn in *; simplify_eq; done|by apply (H i)].
      + intros i a c Ha Hc. by apply (H (S i)).
    - exists false. split; [done|]. split; [done|]. intros H. rewrite (H 0 x y) in E; done.
  Qed.
  (** Compact keeps exactly the first element and those that do not equal their left neighbour. *)
  Lemma dedup_zip eq : forall l x, dedup eq x l = (filter (fun p => eq p.1 p.2 = false) (zip l (x :: l))).*1.
  Proof.
    induction l as [|y l IH]; intros x; [done|]. cbn [dedup zip zip_with]. rewrite filter_cons. cbn [fst snd].
    rewrite (IH y). case_decide as H; [rewrite H; done|]. by destruct (eq y x).
  Qed.
End query.
