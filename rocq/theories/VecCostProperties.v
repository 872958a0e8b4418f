(** C169, C170: what the searches and comparisons of vec look at. *)
From Coq Require Import ZifyBool ZifyNat.
From Verif Require Import Base VecModel VecSpec VecProofs VecExample VecCostSpec VecCost.

Section cost.
  Context {T : Type} (zero : T) (auto_less auto_equal : option (T -> T -> bool)).
  Notation W := (vworld T).
  Implicit Types (w : W) (v u : nat).

  (** ** C169.  The answer of BinarySearchFunc on n elements, found or not, depends only on what the
      comparison says of at most log2 n + 2 elements (of none if the vector is empty): any other vector
      of this length, and any other comparison, that agree there give the same answer, whatever the other
      elements are and even if the comparison panics on them. *)
  Theorem C169_BinarySearchFunc w v (cmp : T -> res Z) :
    exists I : list nat, length I <= Nat.log2 (length (vseq w v)) + 2 /\ (vseq w v = [] -> I = []) /\
      forall w' v' cmp', same_at I (vseq w v) cmp (vseq w' v') cmp' ->
        answer (BinarySearchFunc v' cmp' w') = answer (BinarySearchFunc v cmp w).
  Proof.
    destruct (search_looks cmp (vseq w v)) as (I&HI&H0&H). exists I. split; [done|]. split; [done|]. intros w' v' cmp' Hs.
    unfold BinarySearchFunc, bind, get_d, read, lift. fold (vseq w v) (vseq w' v'). rewrite (H _ _ Hs).
    by destruct (s_BinarySearchFunc (vseq w v) cmp).
  Qed.
  (** With the comparators of the vectors. *)
  Theorem C169_BinarySearch w v (t : T) :
    exists I : list nat, length I <= Nat.log2 (length (vseq w v)) + 2 /\ (vseq w v = [] -> I = []) /\
      forall w' v' t',
        same_at I (vseq w v) (fun x => three_way (CmpLess auto_less w v) (CmpEqual auto_equal w v) x t)
                  (vseq w' v') (fun x => three_way (CmpLess auto_less w' v') (CmpEqual auto_equal w' v') x t') ->
        answer (BinarySearch auto_less auto_equal v' t' w') = answer (BinarySearch auto_less auto_equal v t w).
  Proof.
    destruct (C169_BinarySearchFunc w v (fun x => three_way (CmpLess auto_less w v) (CmpEqual auto_equal w v) x t)) as (I&HI&H0&H).
    exists I. split; [done|]. split; [done|]. intros w' v' t' Hs. exact (H w' v' _ Hs).
  Qed.

  (** ** C170.  The searches from the front ask about no element behind the one that decides, which may
      be a match or one on which the function panics. *)
  Theorem C170_SearchFunc w v (f : T -> res bool) i x r :
    (forall k y, k < i -> vseq w v !! k = Some y -> f y = Ok false) -> vseq w v !! i = Some x -> f x = r -> r <> Ok false ->
    answer (SearchFunc v f w) = match r with Ok _ => Ok (Z.of_nat i) | Panic => Panic | NoFuel => NoFuel end.
  Proof.
    intros Hb Hx Hf Hr. unfold SearchFunc, bind, get_d, read, lift. fold (vseq w v).
    rewrite (indexFunc_until f (vseq w v) i x r Hb Hx Hf Hr 0%Z). by destruct r.
  Qed.
  Theorem C170_ContainsFunc w v (f : T -> res bool) i x r :
    (forall k y, k < i -> vseq w v !! k = Some y -> f y = Ok false) -> vseq w v !! i = Some x -> f x = r -> r <> Ok false ->
    answer (ContainsFunc v f w) = r.
  Proof.
    intros Hb Hx Hf Hr. unfold ContainsFunc, containsFunc, bind, get_d, read, lift. fold (vseq w v).
    rewrite (indexFunc_until f (vseq w v) i x r Hb Hx Hf Hr 0%Z). destruct r as [[]| |]; try done. cbn. f_equal. lia.
  Qed.
  (** Equality of vectors of different lengths asks nothing; otherwise nothing behind the first pair that
      decides. *)
  Theorem C170_EqualVecFunc_length w v u (eq : T -> T -> res bool) : length (vseq w v) <> length (vseq w u) ->
    answer (EqualVecFunc v u eq w) = Ok false.
  Proof.
    intros H. unfold EqualVecFunc, s_EqualFunc, bind, get_d, read, lift. fold (vseq w v) (vseq w u).
    destruct (Nat.eqb_spec (length (vseq w v)) (length (vseq w u))); done.
  Qed.
  Theorem C170_EqualVecFunc w v u (eq : T -> T -> res bool) i x y r : length (vseq w v) = length (vseq w u) ->
    (forall k a b, k < i -> vseq w v !! k = Some a -> vseq w u !! k = Some b -> eq a b = Ok true) ->
    vseq w v !! i = Some x -> vseq w u !! i = Some y -> eq x y = r -> r <> Ok true ->
    answer (EqualVecFunc v u eq w) = r.
  Proof.
    intros Hl Hb Hx Hy He Hr. unfold EqualVecFunc, s_EqualFunc, bind, get_d, read, lift. fold (vseq w v) (vseq w u).
    rewrite Hl, Nat.eqb_refl, (equalFunc_until eq _ _ i x y r Hb Hx Hy He Hr). by destruct r.
  Qed.
  Theorem C170_CompareFunc w v u (less equal : T -> T -> res bool) i x y r :
    (forall k a b, k < i -> vseq w v !! k = Some a -> vseq w u !! k = Some b -> three_way less equal a b = Ok 0%Z) ->
    vseq w v !! i = Some x -> vseq w u !! i = Some y -> three_way less equal x y = r -> r <> Ok 0%Z ->
    answer (CompareFunc v u less equal w) = r.
  Proof.
    intros Hb Hx Hy He Hr. unfold CompareFunc, bind, get_d, read, lift. fold (vseq w v) (vseq w u).
    rewrite (compareFunc_until _ _ _ i x y r Hb Hx Hy He Hr). by destruct r.
  Qed.
  (** IsSorted goes from the back: it asks about no pair before the last one that is out of order. *)
  Theorem C170_IsSortedFunc w v (less equal : T -> T -> res bool) i x y r :
    (forall k a b, i < k -> vseq w v !! k = Some a -> vseq w v !! S k = Some b -> less b a = Ok false /\ is_ok (equal b a)) ->
    vseq w v !! i = Some x -> vseq w v !! S i = Some y -> less y x = r -> r <> Ok false ->
    answer (IsSortedFunc v less equal w) = match r with Ok _ => Ok false | Panic => Panic | NoFuel => NoFuel end.
  Proof.
    intros Hb Hx Hy He Hr. unfold IsSortedFunc, bind, get_d, read, lift. fold (vseq w v).
    assert (S i < length (vseq w v)) as Hl by (by eapply lookup_lt_Some).
    assert (forall k, k < length (vseq w v) -> rev (vseq w v) !! k = vseq w v !! (length (vseq w v) - S k)) as Hrev.
    { intros k Hk. rewrite rev_alt. by apply reverse_lookup. }
    rewrite (isSortedRev_until _ _ (length (vseq w v) - S (S i)) y x (three_way less equal y x)).
    - unfold three_way. rewrite He. destruct r as [[]| |]; done.
    - intros k a b Hk Ha Hb'. rewrite Hrev in Ha by lia. rewrite Hrev in Hb' by lia.
      destruct (Hb (length (vseq w v) - S (S k)) b a) as [H1 H2]; [lia|done| |].
      { rewrite <- Ha. f_equal. lia. }
      unfold three_way. rewrite H1. cbn. destruct H2 as [e ->]. cbn. destruct e; eexists; (split; [done|lia]).
    - rewrite Hrev by lia. rewrite <- Hy. f_equal. lia.
    - rewrite Hrev by lia. rewrite <- Hx. f_equal. lia.
    - done.
    - intros z. unfold three_way. rewrite He. destruct r as [[]| |]; try done. cbn. intros [= <-]. lia.
  Qed.
End cost.

Print Assumptions C169_BinarySearchFunc.
Print Assumptions C169_BinarySearch.
Print Assumptions C170_SearchFunc.
Print Assumptions C170_ContainsFunc.
Print Assumptions C170_EqualVecFunc_length.
Print Assumptions C170_EqualVecFunc.
Print Assumptions C170_CompareFunc.
Print Assumptions C170_IsSortedFunc.

(** ** Examples *)
Local Definition ex_vec : list (v_op Z) := [ONew None None; OCall 0 (VPush [1; 2; 3; 4; 5; 6; 7; 8]%Z);
  ONew None None; OCall 1 (VPush [1; 2; 9]%Z)].
Local Definition ex_world : vworld Z :=
  match run_ops 0%Z (fun _ _ n => n) (Some Z.eqb) isort isort (empty_vworld, []) ex_vec with Some st => fst st | None => empty_vworld end.
(** A comparison with 5 that panics on all elements but 3, 4 and 5; a search for 2 that panics above
    it; a comparison that always panics; an equality that finds 3 unequal and panics behind it. *)
Local Definition ex_cmp (x : Z) : res Z := if ((3 <=? x) && (x <=? 5))%Z then Ok (x - 5)%Z else Panic.
Local Definition ex_hit (x : Z) : res bool := if (x <=? 2)%Z then Ok (x =? 2)%Z else Panic.
Local Definition ex_never (x y : Z) : res bool := Panic.
Local Definition ex_eq (x y : Z) : res bool := if (x =? 3)%Z then Ok false else if (x <? 3)%Z then Ok (x =? y)%Z else Panic.

Example C169_example :
  vseq ex_world 0 = [1; 2; 3; 4; 5; 6; 7; 8]%Z /\
  answer (BinarySearchFunc 0 ex_cmp ex_world) = Ok (4, true)%Z /\
  Nat.log2 (length (vseq ex_world 0)) + 2 = 5 /\
  same_at [4; 2; 3] [1; 2; 3; 4; 5; 6; 7; 8]%Z (fun x => Ok (x - 5)%Z) (vseq ex_world 0) ex_cmp /\
  answer (BinarySearchFunc 0 (fun x => Ok (x - 9)%Z) ex_world) = Ok (8, false)%Z.
Proof.
  split; [vm_compute; reflexivity|]. split; [vm_compute; reflexivity|]. split; [vm_compute; reflexivity|].
  split; [|vm_compute; reflexivity].
  assert (vseq ex_world 0 = [1; 2; 3; 4; 5; 6; 7; 8]%Z) as -> by (vm_compute; reflexivity).
  split; [done|]. intros i x Hi. rewrite !elem_of_cons, elem_of_nil in Hi. destruct Hi as [->|[->|[->|[]]]]; cbn; intros [= <-]; eauto.
Qed.
Example C170_example :
  answer (SearchFunc 0 ex_hit ex_world) = Ok 1%Z /\ answer (ContainsFunc 0 ex_hit ex_world) = Ok true /\
  answer (SearchFunc 0 (fun x => b <-! ex_hit x ;; Ok (negb (Z.ltb 0 x))) ex_world) = Panic /\
  answer (EqualVecFunc 0 1 ex_never ex_world) = Ok false /\
  answer (EqualVecFunc 0 0 ex_eq ex_world) = Ok false /\
  answer (CompareFunc 0 1 (fun x y => if (x <? 4)%Z then Ok (x <? y)%Z else Panic) (fun x y => Ok (x =? y)%Z) ex_world) = Ok (-1)%Z /\
  answer (IsSortedFunc 1 (fun x y => if (y <? 2)%Z then Panic else Ok (y <? x)%Z) (fun x y => Ok (x =? y)%Z) ex_world) = Ok false.
Proof. repeat split; vm_compute; reflexivity. Qed.
