(** Proofs about the array of a heap. *)
From Coq Require Import ZifyBool ZifyNat.
From Verif Require Import Base HeapModel HeapSpec HeapProofs HeapIface HeapIfaceSpec HeapIfaceProofs HeapArray HeapArraySpec.

Section arr.
  Context {A : Type} (zero : A) (growth : nat -> nat) (less : A -> A -> bool).
  Notation I := (arr_iface zero growth less).
  Implicit Types (s : arr A) (l b m : list A) (x y : A).

  Lemma elems_holds s l b : holds s l b -> a_elems s = l /\ drop (a_len s) (a_cells s) = b.
  Proof. unfold holds, a_elems. intros [-> ->]. by rewrite take_app, drop_app. Qed.
  Lemma arr_less s l b i j x y : holds s l b -> l !! i = Some x -> l !! j = Some y ->
    a_Less less (Z.of_nat i) (Z.of_nat j) s = Ok (less x y, s).
  Proof. intros [E _]%elems_holds Hi Hj. unfold a_Less, h_less. by rewrite E, !getZ_nat, Hi, Hj. Qed.
  Lemma arr_swap s l b i j x y : holds s l b -> l !! i = Some x -> l !! j = Some y ->
    exists s', a_Swap (Z.of_nat i) (Z.of_nat j) s = Ok s' /\ holds s' (<[j := x]> (<[i := y]> l)) b.
  Proof.
    intros H Hi Hj. destruct (elems_holds _ _ _ H) as [E1 E2]. unfold a_Swap, h_swap. rewrite E1, !getZ_nat, Hi, Hj, E2, !Nat2Z.id. cbn.
    eexists. split; [done|]. split; cbn; [done|]. destruct H as [_ ->]. by rewrite !insert_length.
  Qed.
  Lemma arr_pop s l x b : holds s (l ++ [x]) b -> exists s', a_Pop s = Ok (x, s') /\ holds s' l (x :: b).
  Proof.
    intros H. destruct (elems_holds _ _ _ H) as [E1 _]. destruct H as [Ec El]. rewrite app_length in El. cbn in El.
    unfold a_Pop, a_Len. rewrite E1, El. replace (Z.of_nat (length l + 1) - 1)%Z with (Z.of_nat (length l)) by lia.
    rewrite getZ_nat, lookup_app_r, Nat.sub_diag by lia. cbn. eexists. split; [done|]. split; cbn; [|lia]. by rewrite Ec, <- app_assoc.
  Qed.
  Lemma arr_push s l b x : holds s l b -> exists s' b', a_Push zero growth x s = Ok s' /\ holds s' (l ++ [x]) b' /\
    match b with [] => b' = replicate (growth (length l)) zero | _ :: b0 => b' = b0 end.
  Proof.
    intros H. destruct (elems_holds _ _ _ H) as [E1 _]. destruct H as [Ec El]. unfold a_Push. rewrite E1, Ec, El, app_length.
    destruct b as [|y b].
    - cbn [length]. replace (_ <? _) with false by lia. eexists _, _. split; [done|]. split; [|done]. split; cbn.
      + by rewrite <- app_assoc.
      + rewrite app_length. cbn. lia.
    - cbn [length]. replace (_ <? _) with true by lia. eexists _, _. split; [done|]. split; [|done]. split; cbn.
      + rewrite insert_app_r_alt by lia. rewrite Nat.sub_diag. cbn. by rewrite <- app_assoc.
      + rewrite app_length. cbn. lia.
  Qed.

  (** Any array will do for the contract. *)
  Lemma arr_implements : implements I less (fun s l => exists b, holds s l b) (fun _ _ => True).
  Proof.
    split.
    - intros s l [b [_ H]]. cbn. unfold a_Len. by rewrite H.
    - intros s l i j x y [b H] Hi Hj. exists s. cbn. split; [by eapply arr_less|eauto].
    - intros s l i j x y [b H] Hi Hj. destruct (arr_swap _ _ _ _ _ _ _ H Hi Hj) as (s'&?&?). eauto.
    - intros s l x [b H] _. destruct (arr_push _ _ _ x H) as (s'&b'&?&?&_). eauto.
    - intros s l x [b H]. destruct (arr_pop _ _ _ _ H) as (s'&?&?). eauto.
  Qed.

  (** Without [Push]: the array keeps all its elements. *)
  Definition kept (c b : list A) s l : Prop := exists m, holds s l (m ++ b) /\ l ++ m ++ b ≡ₚ c.
  Lemma kept_implements c b : implements I less (kept c b) (fun _ _ => False).
  Proof.
    split.
    - intros s l (m&[_ H]&_). cbn. unfold a_Len. by rewrite H.
    - intros s l i j x y (m&H&Hp) Hi Hj. exists s. cbn. split; [by eapply arr_less|]. by exists m.
    - intros s l i j x y (m&H&Hp) Hi Hj. destruct (arr_swap _ _ _ _ _ _ _ H Hi Hj) as (s'&E&Hs). exists s'. split; [done|].
      exists m. split; [done|]. rewrite <- Hp. apply Permutation_app_tail. by apply swapn_perm.
    - done.
    - intros s l x (m&H&Hp). destruct (arr_pop _ _ _ _ H) as (s'&E&Hs). exists s'. split; [done|].
      exists (x :: m). split; [done|]. rewrite <- Hp. by rewrite <- app_assoc.
  Qed.
  Lemma kept_start s l b : holds s l b -> kept (l ++ b) b s l.
  Proof. intros H. by exists []. Qed.
  Lemma kept_same s l b l0 : length l = length l0 -> kept (l0 ++ b) b s l -> holds s l b.
  Proof.
    intros Hl (m&H&Hp). apply Permutation_length in Hp. rewrite !app_length in Hp. destruct m; [done|cbn in Hp; lia].
  Qed.
  Lemma kept_less s l b l0 x : l0 ≡ₚ x :: l -> kept (l0 ++ b) b s l -> holds s l (x :: b).
  Proof.
    intros Hl (m&H&Hp). pose proof (Permutation_length Hp) as Hn. rewrite !app_length in Hn.
    rewrite (Permutation_length Hl) in Hn. cbn in Hn. destruct m as [|y [|z m]]; cbn in Hn; [lia| |lia].
    assert (y = x) as ->; [|done]. rewrite Hl in Hp. cbn in Hp. rewrite <- Permutation_middle in Hp.
    assert ([y] ++ (l ++ b) ≡ₚ [x] ++ (l ++ b)) as Hq by done. apply Permutation_app_inv_r in Hq.
    by apply Permutation_singleton_inj in Hq || (apply Permutation_length_1 in Hq).
  Qed.

  Context (SW : strict_weak less).
  Lemma Init_holds s l b : holds s l b -> fits (length l) ->
    exists s' l', g_Init I s = Ok s' /\ holds s' l' b /\ l' ≡ₚ l /\ heap_ordered less l'.
  Proof.
    intros H Hf. destruct (heap_Init_spec less SW l) as (l'&E&Hp&Ho).
    destruct (Init_sim I less _ _ (kept_implements (l ++ b) b) _ _ _ (kept_start _ _ _ H) Hf E) as (s'&E'&Hk).
    exists s', l'. split; [done|]. split; [|done]. eapply kept_same; [|exact Hk]. by apply Permutation_length.
  Qed.
  Lemma Pop_holds s l b : holds s l b -> heap_ordered less l -> l <> [] -> fits (length l) ->
    exists x s' l', g_Pop I s = Ok (x, s') /\ holds s' l' (x :: b) /\ l ≡ₚ x :: l' /\ least less x l /\ heap_ordered less l'.
  Proof.
    intros H Ho Hl Hf. destruct (heap_Pop_spec less SW l Ho Hl) as (x&l'&E&Hp&_&Hle&Ho').
    destruct (Pop_sim I less _ _ (kept_implements (l ++ b) b) _ _ _ _ (kept_start _ _ _ H) Hf E) as (s'&E'&Hk).
    exists x, s', l'. split; [done|]. split; [|done]. by eapply kept_less.
  Qed.
  Lemma Remove_holds s l b i x : holds s l b -> heap_ordered less l -> l !! i = Some x -> fits (length l) ->
    exists s' l', g_Remove I s (Z.of_nat i) = Ok (x, s') /\ holds s' l' (x :: b) /\ l ≡ₚ x :: l' /\ heap_ordered less l'.
  Proof.
    intros H Ho Hi Hf. destruct (heap_Remove_spec less SW l i x Ho Hi) as (l'&E&Hp&Ho').
    destruct (Remove_sim I less _ _ (kept_implements (l ++ b) b) _ _ _ _ _ (kept_start _ _ _ H) Hf (lookup_lt_Some _ _ _ Hi) E) as (s'&E'&Hk).
    exists s', l'. split; [done|]. split; [|done]. by eapply kept_less.
  Qed.
  (** [Push]: one element more, one cell less behind, unless there was none. *)
  Definition behind_push (n : nat) (b : list A) : list A := match b with [] => replicate (growth n) zero | _ :: b => b end.
  Definition pushed (l0 b : list A) (x : A) s l : Prop :=
    kept (l0 ++ b) b s l \/ kept ((l0 ++ [x]) ++ behind_push (length l0) b) (behind_push (length l0) b) s l.
  Lemma pushed_implements l0 b x : implements I less (pushed l0 b x) (fun y l => y = x /\ l = l0).
  Proof.
    split.
    - intros s l [H|H]; by eapply (im_len _ _ _ _ (kept_implements _ _)).
    - intros s l i j y z [H|H] Hi Hj; destruct (im_less _ _ _ _ (kept_implements _ _) _ _ _ _ _ _ H Hi Hj) as (s'&?&?); exists s'; (split; [done|]); [by left|by right].
    - intros s l i j y z [H|H] Hi Hj; destruct (im_swap _ _ _ _ (kept_implements _ _) _ _ _ _ _ _ H Hi Hj) as (s'&?&?); exists s'; (split; [done|]); [by left|by right].
    - intros s l y [H|(m&H&Hp)] [-> ->].
      + apply kept_same in H; [|done]. destruct (arr_push _ _ _ x H) as (s'&b'&E&Hs&Hb). exists s'. split; [done|]. right.
        assert (b' = behind_push (length l0) b) as -> by (unfold behind_push; by destruct b). by apply kept_start.
      + pose proof (Permutation_length Hp) as Hn. rewrite !app_length in Hn. cbn in Hn.
        destruct m as [|z [|z' m]]; cbn in Hn; [lia| |lia].
        destruct (arr_push _ _ _ x H) as (s'&b'&E&Hs&Hb). cbn in Hb. exists s'. split; [done|]. right. rewrite Hb in Hs. by apply kept_start.
    - intros s l y [H|H]; destruct (im_pop _ _ _ _ (kept_implements _ _) _ _ _ H) as (s'&?&?); exists s'; (split; [done|]); [by left|by right].
  Qed.
  Lemma Push_holds s l b x : holds s l b -> heap_ordered less l -> fits (length l + 1) ->
    exists s' l', g_Push I s x = Ok s' /\ holds s' l' (behind_push (length l) b) /\ l' ≡ₚ x :: l /\ heap_ordered less l'.
  Proof.
    intros H Ho Hf. rewrite Nat.add_1_r in Hf. destruct (heap_Push_spec less SW l x Ho) as (l'&E&Hp&Ho').
    assert (pushed l b x s l) as Hr by (left; by apply kept_start).
    destruct (Push_sim I less _ _ (pushed_implements l b x) _ _ _ _ Hr (conj (eq_refl x) (eq_refl l)) Hf E) as (s'&E'&Hk).
    exists s', l'. split; [done|]. split; [|done]. pose proof (Permutation_length Hp) as Hn. cbn in Hn. destruct Hk as [(m&_&Hq)|Hk].
    - apply Permutation_length in Hq. rewrite !app_length in Hq. lia.
    - eapply kept_same; [|exact Hk]. rewrite app_length. cbn. lia.
  Qed.
  Lemma pops_holds k : forall s l b, holds s l b -> heap_ordered less l -> k <= length l -> fits (length l) ->
    exists out s' l', g_pops I k s = Ok (out, s') /\ holds s' l' (rev out ++ b) /\ l ≡ₚ out ++ l' /\ length out = k.
  Proof.
    induction k as [|k IH]; intros s l b H Ho Hk Hf.
    - exists [], s, l. done.
    - destruct (Pop_holds s l b H Ho) as (x&s1&l1&E1&H1&Hp1&_&Ho1); [by destruct l; cbn in *; [lia|]|done|].
      pose proof (Permutation_length Hp1) as Hlen. cbn in Hlen.
      destruct (IH s1 l1 (x :: b) H1 Ho1) as (out&s2&l2&E2&H2&Hp2&Hl2); [lia|unfold fits in *; lia|].
      exists (x :: out), s2, l2. cbn [g_pops]. rewrite E1. cbn. rewrite E2. cbn. split; [done|]. split; [by rewrite <- app_assoc|].
      split; [|lia]. by rewrite Hp1, Hp2.
  Qed.
End arr.
