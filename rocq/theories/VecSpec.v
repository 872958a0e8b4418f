(** Specification vocabulary for vec: a vector is a finite sequence. *)
From Verif Require Import Base VecModel.
Local Open Scope Z_scope.

Section spec.
  Context {T : Type} (zero : T) (growth : nat -> nat -> nat -> nat).
  Context (auto_less auto_equal : option (T -> T -> bool)).
  Context (srt srt_stable : (T -> T -> Z) -> list T -> list T).
  Notation W := (vworld T).

  (** The sequence a vector holds. *)
  Definition vseq (w : W) (v : nat) : list T := contents w (v_d (w_vec w v)).

  (** One call on one vector. *)
  Inductive v_call :=
  | VLen | VPush (vs : list T) | VPop | VRemove (i : Z) | VGet (i : Z) | VSet (i : Z) (x : T) | VClear
  | VFirst | VLast | VSwap (i j : Z) | VInsert (i : Z) (vs : list T) | VDelete (i j : Z)
  | VReplace (i j : Z) (vs : list T) | VReverse | VCut (i j : Z) | VSlice | VSliceCut (i j : Z)
  | VSplitOff (i : Z) | VClone | VCloneToSlice | VCompactFunc (eq : T -> T -> bool)
  | VConpareAndRemove (i : Z) (x : T) | VGrow (n : Z) | VClip
  | VSetLess (f : option (T -> T -> bool)) | VSetEqual (f : option (T -> T -> bool))
  | VSortFunc (less equal : T -> T -> bool) | VSortStableFunc (less equal : T -> T -> bool).
  Inductive v_res := RUnit | RBool (b : bool) | RElem (x : T) (ok : bool) | RNum (n : Z) | RVec (u : nat) | RSlice (s : slice).

  Definition v_exec (v : nat) (c : v_call) : M W v_res :=
    match c with
    | VLen => n <- Len v ;; ret (RNum n)
    | VPush vs => Push zero growth v vs ;;; ret RUnit
    | VPop => r <- Pop zero v ;; ret (RElem (fst r) (snd r))
    | VRemove i => r <- Remove zero v i ;; ret (RElem (fst r) (snd r))
    | VGet i => r <- Get zero v i ;; ret (RElem (fst r) (snd r))
    | VSet i x => b <- Set_ v i x ;; ret (RBool b)
    | VClear => Clear v ;;; ret RUnit
    | VFirst => r <- First zero v ;; ret (RElem (fst r) (snd r))
    | VLast => r <- Last zero v ;; ret (RElem (fst r) (snd r))
    | VSwap i j => Swap v i j ;;; ret RUnit
    | VInsert i vs => Insert zero growth v i vs ;;; ret RUnit
    | VDelete i j => Delete zero growth v i j ;;; ret RUnit
    | VReplace i j vs => Replace zero growth v i j vs ;;; ret RUnit
    | VReverse => Reverse v ;;; ret RUnit
    | VCut i j => s <- Cut zero growth v i j ;; ret (RSlice s)
    | VSlice => s <- Slice v ;; ret (RSlice s)
    | VSliceCut i j => s <- SliceCut v i j ;; ret (RSlice s)
    | VSplitOff i => u <- SplitOff zero growth v i ;; ret (RVec u)
    | VClone => u <- Clone zero growth v ;; ret (RVec u)
    | VCloneToSlice => s <- CloneToSlice zero growth v ;; ret (RSlice s)
    | VCompactFunc eq => CompactFunc zero v (pure_cmp eq) ;;; ret RUnit
    | VConpareAndRemove i x => r <- ConpareAndRemove zero auto_equal v i x ;; ret (RElem (fst r) (snd r))
    | VGrow n => Grow zero growth v n ;;; ret RUnit
    | VClip => Clip v ;;; ret RUnit
    | VSetLess f => SetCmpLess v f ;;; ret RUnit
    | VSetEqual f => SetCmpEqual v f ;;; ret RUnit
    | VSortFunc less equal => SortFunc srt v less equal ;;; ret RUnit
    | VSortStableFunc less equal => SortStableFunc srt_stable v less equal ;;; ret RUnit
    end.

  (** What the call should answer and leave, as a function of the sequence alone; None is a panic. *)
  Inductive v_ans := AUnit | ABool (b : bool) | AElem (x : T) (ok : bool) | ANum (n : Z) | ASeq (l : list T).
  Definition in_range (i : Z) (l : list T) : bool := (0 <=? i) && (i <? Z.of_nat (length l)).
  Definition good_range (i j : Z) (l : list T) : bool := (0 <=? i) && (i <=? j) && (j <=? Z.of_nat (length l)).
  Definition nth_elem (i : Z) (l : list T) : v_ans :=
    match (if 0 <=? i then l !! Z.to_nat i else None) with Some x => AElem x true | None => AElem zero false end.
  Definition removed (i : Z) (l : list T) : list T := if in_range i l then delete (Z.to_nat i) l else l.
  (** x is dropped if it equals its left neighbour in the original sequence. *)
  Fixpoint dedup (eq : T -> T -> bool) (prev : T) (l : list T) : list T :=
    match l with [] => [] | x :: l => if eq x prev then dedup eq x l else x :: dedup eq x l end.
  Definition compacted (eq : T -> T -> bool) (l : list T) : list T :=
    match l with [] => [] | x :: l => x :: dedup eq x l end.
  (** What the slice returned by Cut shows: the elements that moved in, then whatever was not overwritten. *)
  Definition cut_shown (i j : nat) (l : list T) : list T :=
    take (j - i) (drop j l ++ drop (i + (length l - j)) l).
  Definition v_spec (equal : option (T -> T -> bool)) (c : v_call) (l : list T) : option (v_ans * list T) :=
    match c with
    | VLen => Some (ANum (Z.of_nat (length l)), l)
    | VPush vs => Some (AUnit, l ++ vs)
    | VPop => let i := Z.of_nat (length l) - 1 in Some (nth_elem i l, removed i l)
    | VRemove i => Some (nth_elem i l, removed i l)
    | VGet i => Some (nth_elem i l, l)
    | VSet i x => Some (ABool (in_range i l), if in_range i l then <[Z.to_nat i := x]> l else l)
    | VClear => Some (AUnit, [])
    | VFirst => Some (nth_elem 0 l, l)
    | VLast => Some (nth_elem (Z.of_nat (length l) - 1) l, l)
    | VSwap i j =>
        Some (AUnit, if in_range i l && in_range j l then
          match l !! Z.to_nat i, l !! Z.to_nat j with Some a, Some b => <[Z.to_nat j := a]> (<[Z.to_nat i := b]> l) | _, _ => l end
        else l)
    | VInsert i vs => if good_range i i l then Some (AUnit, take (Z.to_nat i) l ++ vs ++ drop (Z.to_nat i) l) else None
    | VDelete i j => if good_range i j l then Some (AUnit, take (Z.to_nat i) l ++ drop (Z.to_nat j) l) else None
    | VReplace i j vs => if good_range i j l then Some (AUnit, take (Z.to_nat i) l ++ vs ++ drop (Z.to_nat j) l) else None
    | VReverse => Some (AUnit, rev l)
    | VCut i j =>
        if good_range i j l
        then Some (ASeq (cut_shown (Z.to_nat i) (Z.to_nat j) l), take (Z.to_nat i) l ++ drop (Z.to_nat j) l)
        else Some (ASeq [], l)
    | VSlice => Some (ASeq l, l)
    | VSliceCut i j => Some (ASeq (if good_range i j l then drop (Z.to_nat i) (take (Z.to_nat j) l) else []), l)
    | VSplitOff i =>
        if good_range i (Z.of_nat (length l)) l then Some (ASeq (drop (Z.to_nat i) l), take (Z.to_nat i) l)
        else Some (ASeq [], l)
    | VClone => Some (ASeq l, l)
    | VCloneToSlice => Some (ASeq l, l)
    | VCompactFunc eq => Some (AUnit, compacted eq l)
    | VConpareAndRemove i x =>
        if in_range i l then
          match l !! Z.to_nat i, equal with
          | Some y, Some eq => if eq y x then Some (nth_elem i l, removed i l) else Some (AElem zero false, l)
          | _, _ => None
          end
        else Some (AElem zero false, l)
    | VGrow n => if 0 <=? n then Some (AUnit, l) else None
    | VClip | VSetLess _ | VSetEqual _ => Some (AUnit, l)
    | VSortFunc less equal => Some (AUnit, srt (three less equal) l)
    | VSortStableFunc less equal => Some (AUnit, srt_stable (three less equal) l)
    end.
  (** An answer read in the state after the call. *)
  Definition answers (w : W) (r : v_res) (a : v_ans) : Prop :=
    match r, a with
    | RUnit, AUnit => True
    | RBool b, ABool b' => b = b'
    | RElem x ok, AElem x' ok' => x = x' /\ ok = ok'
    | RNum n, ANum n' => n = n'
    | RVec u, ASeq l => vseq w u = l
    | RSlice s, ASeq l => contents w s = l
    | _, _ => False
    end.

  (** Programs: calls on existing vectors, creation of vectors, and writes through the slices handed
      out so far.  A handed-out slice remembers where it came from: [Some v] for Slice, SliceCut and
      Cut of v, [None] (with its array) for CloneToSlice. *)
  Definition origin : Type := nat + nat.   (* inl v: vector v; inr a: clone with array a *)
  Inductive v_op := ONew (less equal : option (T -> T -> bool)) | OCall (v : nat) (c : v_call) | OWrite (k : nat) (i : Z) (x : T).
  Definition state : Type := W * list (origin * slice).
  Definition handed (v : nat) (c : v_call) (r : v_res) : list (origin * slice) :=
    match c, r with
    | VCloneToSlice, RSlice s => [(match s_arr s with Some a => inr a | None => inl v end, s)]
    | _, RSlice s => [(inl v, s)]
    | _, _ => []
    end.
  Inductive o_step : state -> v_op -> state -> Prop :=
  | os_new w hs less equal u w' :
      New (CUser <$> less) (CUser <$> equal) w = Ok (u, w') -> o_step (w, hs) (ONew less equal) (w', hs)
  | os_call w hs v c r w' :
      (v < w_vn w)%nat -> v_exec v c w = Ok (r, w') -> o_step (w, hs) (OCall v c) (w', hs ++ handed v c r)
  | os_write w hs k o s i x w' :
      hs !! k = Some (o, s) -> user_write s i x w = Ok (tt, w') -> o_step (w, hs) (OWrite k i x) (w', hs).
  Inductive o_steps : state -> list v_op -> state -> Prop :=
  | oss_nil s : o_steps s [] s
  | oss_cons s o s1 os s2 : o_step s o s1 -> o_steps s1 os s2 -> o_steps s (o :: os) s2.
  Definition v_reached (s : state) : Prop := exists os, o_steps (empty_vworld, []) os s.
  (** What an operation works on. *)
  Definition subject (hs : list (origin * slice)) (o : v_op) : option origin :=
    match o with ONew _ _ => None | OCall v _ => Some (inl v) | OWrite k _ _ => fst <$> hs !! k end.
  (** None of the operations works on [x]. *)
  Inductive avoids (x : origin) : state -> list v_op -> state -> Prop :=
  | av_nil s : avoids x s [] s
  | av_cons s o s1 os s2 : subject (snd s) o <> Some x -> o_step s o s1 -> avoids x s1 os s2 -> avoids x s (o :: os) s2.

  (** The comparator in force after a call. *)
  Definition equal_after (e : option (T -> T -> bool)) (c : v_call) : option (T -> T -> bool) :=
    match c with VSetEqual (Some f) => Some f | VSetEqual None => auto_equal | _ => e end.
  (** The answers and the final sequence that a run of calls should give. *)
  Fixpoint spec_run (e : option (T -> T -> bool)) (l : list T) (cs : list v_call) : option (list v_ans * list T) :=
    match cs with
    | [] => Some ([], l)
    | c :: cs =>
        match v_spec e c l with
        | None => None
        | Some (a, l') =>
            match spec_run (equal_after e c) l' cs with Some (rs, l2) => Some (a :: rs, l2) | None => None end
        end
    end.
  (** A run in which the calls on v are [cs] and are answered by [rs], among operations on others. *)
  Inductive v_trace (v : nat) : state -> list v_call -> list v_ans -> state -> Prop :=
  | tr_nil s : v_trace v s [] [] s
  | tr_other s o s1 cs rs s2 : subject (snd s) o <> Some (inl v) -> o_step s o s1 -> v_trace v s1 cs rs s2 -> v_trace v s cs rs s2
  | tr_call w hs c r w1 a cs rs s2 : v_exec v c w = Ok (r, w1) -> answers w1 r a -> v_trace v (w1, hs ++ handed v c r) cs rs s2 ->
      v_trace v (w, hs) (c :: cs) (a :: rs) s2.

  (** Comparators *)
  Definition swo (lt : T -> T -> bool) : Prop :=
    (forall a, lt a a = false) /\
    (forall a b c, lt a b = true -> lt b c = true -> lt a c = true) /\
    (forall a b c, lt a b = false -> lt b a = false -> lt b c = false -> lt c b = false -> lt a c = false /\ lt c a = false).
  (** eq is the equivalence of the order. *)
  Definition matches (lt eq : T -> T -> bool) : Prop := forall a b, eq a b = negb (lt a b) && negb (lt b a).
  (** adjacent elements are in order *)
  Definition adjacent_sorted (lt : T -> T -> bool) (l : list T) : Prop :=
    forall i x y, l !! i = Some x -> l !! S i = Some y -> lt y x = false.
  Definition all_sorted (lt : T -> T -> bool) (l : list T) : Prop :=
    forall i j x y, (i < j)%nat -> l !! i = Some x -> l !! j = Some y -> lt y x = false.
  (** l1 before l2 at the first difference *)
  Inductive lex (lt eq : T -> T -> bool) : list T -> list T -> Z -> Prop :=
  | lex_eq : lex lt eq [] [] 0
  | lex_short y l2 : lex lt eq [] (y :: l2) (-1)
  | lex_long x l1 : lex lt eq (x :: l1) [] 1
  | lex_lt x y l1 l2 : lt x y = true -> lex lt eq (x :: l1) (y :: l2) (-1)
  | lex_gt x y l1 l2 : lt x y = false -> eq x y = false -> lex lt eq (x :: l1) (y :: l2) 1
  | lex_next x y l1 l2 c : lt x y = false -> eq x y = true -> lex lt eq l1 l2 c -> lex lt eq (x :: l1) (y :: l2) c.
End spec.
Arguments v_call : clear implicits. Arguments v_res : clear implicits. Arguments v_ans : clear implicits.
Arguments v_op : clear implicits. Arguments state : clear implicits.

Section queries.
  Context {T : Type}.
  (** The indices at which p holds, in order, counted from i. *)
  Fixpoint hits (p : T -> bool) (i : Z) (l : list T) : list Z :=
    match l with [] => [] | x :: l => if p x then i :: hits p (i + 1) l else hits p (i + 1) l end.
  (** i is the first index at which p holds, or -1. *)
  Definition first_hit (p : T -> bool) (l : list T) (i : Z) : Prop :=
    (i = -1 /\ forall x, x ∈ l -> p x = false) \/
    (0 <= i /\ (exists x, l !! Z.to_nat i = Some x /\ p x = true) /\
     forall k x, (k < Z.to_nat i)%nat -> l !! k = Some x -> p x = false).
  (** pointwise equal *)
  Definition pointwise (eq : T -> T -> bool) (l1 l2 : list T) : Prop :=
    length l1 = length l2 /\ forall i x y, l1 !! i = Some x -> l2 !! i = Some y -> eq x y = true.
  (** What is assumed of slices.SortFunc: a permutation, and sorted if the comparison is the three-way
      comparison of a weak order.  SortStableFunc also keeps the order of equivalent elements. *)
  Definition sorts (srt : (T -> T -> Z) -> list T -> list T) : Prop :=
    (forall f l, srt f l ≡ₚ l) /\
    (forall lt eq l, swo lt -> matches lt eq -> all_sorted lt (srt (three lt eq) l)).
  Definition sorts_stably (srt : (T -> T -> Z) -> list T -> list T) : Prop :=
    sorts srt /\ forall lt eq l a, swo lt -> matches lt eq -> filter (fun x => eq a x = true) (srt (three lt eq) l) = filter (fun x => eq a x = true) l.
  (** The elements a Range callback that accumulates with [f] sees. *)
  Fixpoint range_spec {B} (f : Z -> T -> B -> bool * B) (i : Z) (l : list T) (acc : B) : B :=
    match l with [] => acc | x :: l => let r := f i x acc in if fst r then range_spec f (i + 1) l (snd r) else snd r end.
End queries.
