(** Property theorems for dllist (C09-C19). *)
From Verif Require Import Base DllistModel DllistSpec DllistProofs DllistSteps DllistHistory.

(** [reached zero w]: w holds the structs after some history of calls with good handles, that is
    handles not invalidated by Clear or Sort (C17 says what stale handles do).
    [dabs w]: the sequences of elements the structs stand for.
    [dl_does s s' c r]: what call c answers and what it does to the sequences. *)

Definition ex_calls : list (dl_call (T := nat)) :=
  [DNew; DPushBack 0 10; DPushBack 0 20; DPushFront 0 5; DZero; DPushBack 1 7; DPushBack 1 8;
   DInsertAfter 0 15 1; DMoveToFront 0 2; DSwap 0 2 3; DPushBackList 0 1; DRemove 0 1].
Definition ex_world : dworld nat := match dl_run 0 true ex_calls (empty_dworld 0) with Some (_, w) => w | None => empty_dworld 0 end.
Example ex_reached : reached 0 ex_world /\ dlists (dabs ex_world) 0 /\ dlists (dabs ex_world) 1 /\
  map (dval (dabs ex_world)) (dseq (dabs ex_world) 0) = [5; 20; 15; 7; 8] /\ dseq (dabs ex_world) 0 = [3; 2; 7; 8; 9].
Proof.
  split; [eexists; apply (run_history 0 ex_calls); vm_compute; reflexivity|].
  split; [vm_compute; lia|split; [vm_compute; lia|split; vm_compute; reflexivity]].
Qed.

(** C09 *)
Theorem C09_dllist_history :
  forall (T : Type) (zero : T) tr w,
  dl_history zero (empty_dworld zero) tr w ->
  dl_behaves (dabs (empty_dworld zero)) tr (dabs w) /\ seqs_ok (dabs w).
Proof. exact @history_spec. Qed.
Print Assumptions C09_dllist_history.
Theorem C09_dllist_no_panic_and_ends :
  forall (T : Type) (zero : T) w c, reached zero w -> call_ok (dabs w) c ->
  exists r w', dl_exec zero c w = Ok (r, w') /\ dl_does (dabs w) (dabs w') c r /\ seqs_ok (dabs w') /\ reached zero w'.
Proof. exact @total_spec. Qed.
Print Assumptions C09_dllist_no_panic_and_ends.
Example C09_example :
  exists w, dl_run 0 true
    [DNew; DPushBack 0 10; DPushBack 0 20; DPushFront 0 5; DLen 0; DFront 0; DBack 0; DGet 0 1; DNext 1; DPrev 1; DPrev 3;
     DSlice 0; DRange 0 (fun _ v => Nat.eqb v 5)] (empty_dworld 0) =
  Some ([DList 0; DElem (Some 1); DElem (Some 2); DElem (Some 3); DInt 3; DElem (Some 3); DElem (Some 2);
         DElem (Some 1); DElem (Some 2); DElem (Some 3); DElem None; DVals [5; 10; 20]; DElems false [3; 1]], w).
Proof. eexists. vm_compute. reflexivity. Qed.

(** C10 *)
Theorem C10_dllist_insert :
  forall (T : Type) (zero : T) w l v, reached zero w -> dlists (dabs w) l ->
  (exists e w', dl_exec zero (DPushFront l v) w = Ok (DElem (Some e), w') /\
     inserted (dabs w) (dabs w') l [] e (dseq (dabs w) l) v) /\
  (exists e w', dl_exec zero (DPushBack l v) w = Ok (DElem (Some e), w') /\
     inserted (dabs w) (dabs w') l (dseq (dabs w) l) e [] v) /\
  (forall m pre post, dseq (dabs w) l = pre ++ m :: post ->
     (exists e w', dl_exec zero (DInsertBefore l v m) w = Ok (DElem (Some e), w') /\
        inserted (dabs w) (dabs w') l pre e (m :: post) v) /\
     (exists e w', dl_exec zero (DEInsertBefore m v) w = Ok (DElem (Some e), w') /\
        inserted (dabs w) (dabs w') l pre e (m :: post) v) /\
     (exists e w', dl_exec zero (DInsertAfter l v m) w = Ok (DElem (Some e), w') /\
        inserted (dabs w) (dabs w') l (pre ++ [m]) e post v) /\
     (exists e w', dl_exec zero (DEInsertAfter m v) w = Ok (DElem (Some e), w') /\
        inserted (dabs w) (dabs w') l (pre ++ [m]) e post v)) /\
  (forall m, live (dabs w) m -> m ∉ dseq (dabs w) l ->
     dl_exec zero (DInsertBefore l v m) w = Ok (DElem None, w) /\
     dl_exec zero (DInsertAfter l v m) w = Ok (DElem None, w)) /\
  (forall m, live (dabs w) m -> loose (dabs w) m ->
     dl_exec zero (DEInsertBefore m v) w = Ok (DElem None, w) /\
     dl_exec zero (DEInsertAfter m v) w = Ok (DElem None, w)).
Proof. exact @insert_spec. Qed.
Print Assumptions C10_dllist_insert.
(** marks: element 2 is on list 0, element 6 on list 1 and so foreign, element 1 is loose *)
Example C10_example :
  dseq (dabs ex_world) 0 = [3] ++ 2 :: [7; 8; 9] /\ live (dabs ex_world) 6 /\ 6 ∉ dseq (dabs ex_world) 0 /\
  6 ∈ dseq (dabs ex_world) 1 /\ live (dabs ex_world) 1 /\ e_list ex_world 1 = None.
Proof.
  split; [vm_compute; reflexivity|]. split; [apply liveb_live; vm_compute; reflexivity|].
  split; [vm_compute dseq; set_solver|]. split; [vm_compute dseq; set_solver|].
  split; [apply liveb_live; vm_compute; reflexivity|vm_compute; reflexivity].
Qed.

(** C11 *)
Theorem C11_dllist_Remove :
  forall (T : Type) (zero : T) w l e, reached zero w -> dlists (dabs w) l -> live (dabs w) e ->
  (forall pre post, dseq (dabs w) l = pre ++ e :: post ->
     exists w', dl_exec zero (DRemove l e) w = Ok (DVal (dval (dabs w) e), w') /\
       only_list (dabs w) (dabs w') l (pre ++ post) /\ rest (dabs w) (dabs w') /\
       (* a second time nothing happens, through this or any other list *)
       forall l', dlists (dabs w') l' -> dl_exec zero (DRemove l' e) w' = Ok (DVal (dval (dabs w) e), w')) /\
  (e ∉ dseq (dabs w) l -> dl_exec zero (DRemove l e) w = Ok (DVal (dval (dabs w) e), w)).
Proof. exact @remove_spec. Qed.
Print Assumptions C11_dllist_Remove.
Example C11_example : exists w', dl_run 0 true [DRemove 0 2; DRemove 0 2; DRemove 0 6; DLen 0; DSlice 0; DSlice 1] ex_world =
  Some ([DVal 20; DVal 20; DVal 8; DInt 4; DVals [5; 15; 7; 8]; DVals [7; 8]], w').
Proof. eexists. vm_compute. reflexivity. Qed.

(** C12 *)
Theorem C12_dllist_moves :
  forall (T : Type) (zero : T) w l e, reached zero w -> dlists (dabs w) l ->
  (forall pre post, dseq (dabs w) l = pre ++ e :: post ->
     (exists w', dl_exec zero (DMoveToFront l e) w = Ok (DUnit, w') /\ moved (dabs w) (dabs w') l (e :: pre ++ post)) /\
     (exists w', dl_exec zero (DMoveToBack l e) w = Ok (DUnit, w') /\ moved (dabs w) (dabs w') l (pre ++ post ++ [e])) /\
     (forall m a b, pre ++ post = a ++ m :: b ->
        (exists w', dl_exec zero (DMoveBefore l e m) w = Ok (DUnit, w') /\ moved (dabs w) (dabs w') l (a ++ e :: m :: b)) /\
        (exists w', dl_exec zero (DMoveAfter l e m) w = Ok (DUnit, w') /\ moved (dabs w) (dabs w') l (a ++ m :: e :: b)))) /\
  (live (dabs w) e -> e ∉ dseq (dabs w) l ->
     dl_exec zero (DMoveToFront l e) w = Ok (DUnit, w) /\ dl_exec zero (DMoveToBack l e) w = Ok (DUnit, w)) /\
  (forall m, live (dabs w) e -> live (dabs w) m -> e ∉ dseq (dabs w) l \/ m ∉ dseq (dabs w) l \/ e = m ->
     dl_exec zero (DMoveBefore l e m) w = Ok (DUnit, w) /\ dl_exec zero (DMoveAfter l e m) w = Ok (DUnit, w)).
Proof. exact @moves_spec. Qed.
Print Assumptions C12_dllist_moves.
Example C12_example : exists w', dl_run 0 true
  [DMoveToFront 0 7; DSlice 0; DMoveToBack 0 3; DSlice 0; DMoveBefore 0 3 2; DSlice 0; DMoveAfter 0 7 9; DSlice 0;
   DMoveAfter 0 7 6; DMoveBefore 0 6 7; DMoveBefore 0 7 7; DSlice 0; DSlice 1] ex_world =
  Some ([DUnit; DVals [15; 5; 20; 7; 8]; DUnit; DVals [15; 20; 7; 8; 5]; DUnit; DVals [15; 5; 20; 7; 8];
         DUnit; DVals [5; 20; 7; 8; 15]; DUnit; DUnit; DUnit; DVals [5; 20; 7; 8; 15]; DVals [7; 8]], w').
Proof. eexists. vm_compute. reflexivity. Qed.

(** C13 *)
Theorem C13_dllist_Swap :
  forall (T : Type) (zero : T) w l a b, reached zero w -> dlists (dabs w) l ->
  (forall pre mid post, dseq (dabs w) l = pre ++ a :: mid ++ b :: post ->
     (exists w', dl_exec zero (DSwap l a b) w = Ok (DUnit, w') /\ moved (dabs w) (dabs w') l (pre ++ b :: mid ++ a :: post)) /\
     (exists w', dl_exec zero (DSwap l b a) w = Ok (DUnit, w') /\ moved (dabs w) (dabs w') l (pre ++ b :: mid ++ a :: post))) /\
  (live (dabs w) a -> live (dabs w) b -> a ∉ dseq (dabs w) l \/ b ∉ dseq (dabs w) l \/ a = b ->
     dl_exec zero (DSwap l a b) w = Ok (DUnit, w)).
Proof. exact @swap_spec. Qed.
Print Assumptions C13_dllist_Swap.
Example C13_example : exists w', dl_run 0 true [DSwap 0 3 2; DSlice 0; DSwap 0 9 2; DSlice 0; DSwap 0 6 2; DSlice 0] ex_world =
  Some ([DUnit; DVals [20; 5; 15; 7; 8]; DUnit; DVals [8; 5; 15; 7; 20]; DUnit; DVals [8; 5; 15; 7; 20]], w').
Proof. eexists. vm_compute. reflexivity. Qed.

(** C14: [o] may be [l]. *)
Theorem C14_dllist_copy :
  forall (T : Type) (zero : T) w l o, reached zero w -> dlists (dabs w) l -> dlists (dabs w) o ->
  (exists es w', dl_exec zero (DPushBackList l o) w = Ok (DUnit, w') /\
     fresh_elems (dabs w) (dabs w') es (map (dval (dabs w)) (dseq (dabs w) o)) /\
     only_list (dabs w) (dabs w') l (dseq (dabs w) l ++ es) /\ rest (dabs w) (dabs w')) /\
  (exists es w', dl_exec zero (DPushFrontList l o) w = Ok (DUnit, w') /\
     fresh_elems (dabs w) (dabs w') es (map (dval (dabs w)) (dseq (dabs w) o)) /\
     only_list (dabs w) (dabs w') l (es ++ dseq (dabs w) l) /\ rest (dabs w) (dabs w')).
Proof. exact @copy_spec. Qed.
Print Assumptions C14_dllist_copy.
Example C14_example : exists w', dl_run 0 true [DPushFrontList 1 0; DSlice 1; DPushBackList 0 0; DSlice 0] ex_world =
  Some ([DUnit; DVals [5; 20; 15; 7; 8; 7; 8]; DUnit; DVals [5; 20; 15; 7; 8; 5; 20; 15; 7; 8]], w').
Proof. eexists. vm_compute. reflexivity. Qed.

(** C15 is false of the code: PushBackListTo reverses, and a list given itself is copied wrongly
    by both. *)
Theorem C15_PushBackListTo_refuted :
  forall (T : Type) (zero : T) w l o m pre post x y, reached zero w ->
  dlists (dabs w) l -> dlists (dabs w) o -> l <> o -> dseq (dabs w) l = pre ++ m :: post ->
  map (dval (dabs w)) (dseq (dabs w) o) = [x; y] -> x <> y ->
  exists w', dl_exec zero (DPushBackListTo l o m) w = Ok (DUnit, w') /\
    map (dval (dabs w')) (dseq (dabs w') l) =
      map (dval (dabs w)) pre ++ dval (dabs w) m :: [y; x] ++ map (dval (dabs w)) post.
Proof. exact @back_to_refuted. Qed.
Print Assumptions C15_PushBackListTo_refuted.
(** The list 1 2 3 given itself, mark at 2: one would expect 1 2 1 2 3 3. *)
Theorem C15_self_refuted :
  (exists w', dl_run 0 true [DNew; DPushBack 0 1; DPushBack 0 2; DPushBack 0 3; DPushBackListTo 0 0 2; DSlice 0] (empty_dworld 0) =
     Some ([DList 0; DElem (Some 1); DElem (Some 2); DElem (Some 3); DUnit; DVals [1; 2; 2; 2; 1; 3]], w')) /\
  (exists w', dl_run 0 true [DNew; DPushBack 0 1; DPushBack 0 2; DPushBack 0 3; DPushFrontListTo 0 0 2; DSlice 0] (empty_dworld 0) =
     Some ([DList 0; DElem (Some 1); DElem (Some 2); DElem (Some 3); DUnit; DVals [1; 2; 3; 3; 3; 3]], w')).
Proof. split; eexists; vm_compute; reflexivity. Qed.
Print Assumptions C15_self_refuted.
(** What the two do when the list given is another one. *)
Theorem C15_dllist_copy_to_exact :
  forall (T : Type) (zero : T) w l o m pre post, reached zero w ->
  dlists (dabs w) l -> dlists (dabs w) o -> l <> o -> dseq (dabs w) l = pre ++ m :: post ->
  (exists es w', dl_exec zero (DPushFrontListTo l o m) w = Ok (DUnit, w') /\
     fresh_elems (dabs w) (dabs w') es (map (dval (dabs w)) (dseq (dabs w) o)) /\
     only_list (dabs w) (dabs w') l (pre ++ m :: es ++ post) /\ rest (dabs w) (dabs w')) /\
  (exists es w', dl_exec zero (DPushBackListTo l o m) w = Ok (DUnit, w') /\
     fresh_elems (dabs w) (dabs w') es (rev (map (dval (dabs w)) (dseq (dabs w) o))) /\
     only_list (dabs w) (dabs w') l (pre ++ m :: es ++ post) /\ rest (dabs w) (dabs w')).
Proof. exact @copy_to_spec. Qed.
Print Assumptions C15_dllist_copy_to_exact.
(** What they do when the list is given itself: with the mark at the back PushFrontListTo is right,
    otherwise the walk runs into the copies. *)
Theorem C15_dllist_copy_to_self_exact :
  forall (T : Type) (zero : T) w l m pre post, reached zero w ->
  dlists (dabs w) l -> dseq (dabs w) l = pre ++ m :: post ->
  let val := dval (dabs w) in
  (exists es w', dl_exec zero (DPushFrontListTo l l m) w = Ok (DUnit, w') /\
     fresh_elems (dabs w) (dabs w') es (self_front (map val pre) (val m) (map val post)) /\
     only_list (dabs w) (dabs w') l (pre ++ m :: es ++ post) /\ rest (dabs w) (dabs w')) /\
  (exists es w', dl_exec zero (DPushBackListTo l l m) w = Ok (DUnit, w') /\
     fresh_elems (dabs w) (dabs w') es (self_back (map val pre) (val m) (map val post)) /\
     only_list (dabs w) (dabs w') l (pre ++ m :: es ++ post) /\ rest (dabs w) (dabs w')).
Proof. exact @copy_to_self_spec. Qed.
Print Assumptions C15_dllist_copy_to_self_exact.
Example C15_self_example :
  self_front [5] 20 [15; 7; 8] = [7; 8; 15; 7; 8] /\ self_back [5] 20 [15; 7; 8] = [15; 5; 20; 20; 5] /\
  self_front [5; 20; 15; 7] 8 [] = [5; 20; 15; 7; 8] /\
  (exists w', dl_run 0 true [DPushFrontListTo 0 0 2; DSlice 0] ex_world =
     Some ([DUnit; DVals ([5; 20] ++ [7; 8; 15; 7; 8] ++ [15; 7; 8])], w')) /\
  (exists w', dl_run 0 true [DPushBackListTo 0 0 2; DSlice 0] ex_world =
     Some ([DUnit; DVals ([5; 20] ++ [15; 5; 20; 20; 5] ++ [15; 7; 8])], w')).
Proof. split_and!; try (eexists; vm_compute; reflexivity); reflexivity. Qed.
Example C15_example : exists w', dl_run 0 true [DPushFrontListTo 0 1 2; DSlice 0; DPushBackListTo 0 1 2; DSlice 0; DSlice 1] ex_world =
  Some ([DUnit; DVals [5; 20; 7; 8; 15; 7; 8]; DUnit; DVals [5; 20; 8; 7; 7; 8; 15; 7; 8]; DVals [7; 8]], w').
Proof. eexists. vm_compute. reflexivity. Qed.

(** C16 *)
Theorem C16_dllist_Sort :
  forall (T : Type) (zero : T) w l less, reached zero w -> dlists (dabs w) l -> strict_weak less ->
  exists w', dl_exec zero (DSort l less) w = Ok (DUnit, w') /\
    stably_sorted less (map (dval (dabs w)) (dseq (dabs w) l)) (map (dval (dabs w')) (dseq (dabs w') l)) /\
    (forall l', dlists (dabs w) l' -> l' <> l -> dlists (dabs w') l' /\ dseq (dabs w') l' = dseq (dabs w) l') /\
    same_vals (dabs w) (dabs w').
Proof. exact @sort_spec. Qed.
Print Assumptions C16_dllist_Sort.
(** Ordering by tens only: 12 and 15 keep their order. *)
Definition by_tens (x y : nat) : bool := Nat.ltb (Nat.div x 10) (Nat.div y 10).
Example C16_example : strict_weak by_tens /\
  exists w', dl_run 0 true [DNew; DPushBack 0 31; DPushBack 0 15; DPushBack 0 12; DPushBack 0 8; DPushBack 0 30; DSort 0 by_tens; DSlice 0] (empty_dworld 0) =
  Some ([DList 0; DElem (Some 1); DElem (Some 2); DElem (Some 3); DElem (Some 4); DElem (Some 5); DUnit; DVals [8; 15; 12; 31; 30]], w').
Proof.
  split; [|eexists; vm_compute; reflexivity].
  unfold by_tens. split; [intros; apply Nat.ltb_irrefl|split]; intros x y z; rewrite ?Nat.ltb_lt; lia.
Qed.

(** C17 is false of the code: in every reached state, an element of a list that is then cleared
    still counts as an element of it, and removing it leaves the list with length -1. *)
Theorem C17_stale_Remove_refuted :
  forall (T : Type) (zero : T) w l e, reached zero w -> dlists (dabs w) l -> e ∈ dseq (dabs w) l ->
  exists v w', dl_run zero false [DClear l; DRemove l e; DLen l] w = Some ([DList l; DVal v; DInt (-1)], w').
Proof. exact @stale_remove_spec. Qed.
Print Assumptions C17_stale_Remove_refuted.
(** After Sort of 3 1 2 the list reads 1 2 3; Remove through the old handle of the middle element
    leaves all three elements in place but Len is 2. *)
Theorem C17_stale_Sort_refuted :
  exists w', dl_run 0 false [DNew; DPushBack 0 3; DPushBack 0 1; DPushBack 0 2; DSort 0 Nat.ltb; DRemove 0 2; DLen 0;
      DRange 0 (fun _ _ => true)] (empty_dworld 0) =
    Some ([DList 0; DElem (Some 1); DElem (Some 2); DElem (Some 3); DUnit; DVal 1; DInt 2; DElems true [13; 14; 15]], w').
Proof. eexists. vm_compute. reflexivity. Qed.
Print Assumptions C17_stale_Sort_refuted.
(** Handles of other lists, and handles of elements removed before, stay good through Clear and
    Sort (and by C09 all calls through them behave). *)
Theorem C17_dllist_other_handles_stay :
  forall (T : Type) (zero : T) w l e c, reached zero w -> dlists (dabs w) l ->
  live (dabs w) e -> e ∉ dseq (dabs w) l -> c = DClear l \/ (exists less, c = DSort l less) ->
  exists r w', dl_exec zero c w = Ok (r, w') /\ reached zero w' /\ live (dabs w') e /\ dval (dabs w') e = dval (dabs w) e.
Proof. exact @other_handles_spec. Qed.
Print Assumptions C17_dllist_other_handles_stay.
Example C17_example : 2 ∈ dseq (dabs ex_world) 0 /\ live (dabs ex_world) 6 /\ 6 ∉ dseq (dabs ex_world) 0.
Proof.
  split; [vm_compute dseq; set_solver|]. split; [apply liveb_live; vm_compute; reflexivity|vm_compute dseq; set_solver].
Qed.

(** C18: for any callback, as long as it keeps the sequence of the list it ranges over. *)
Theorem C18_dllist_Range :
  forall (T : Type) (zero : T) (A : Type) w l (f : option nat -> A -> M (dworld T) (bool * A)) a fuel,
  reached zero w -> dlists (dabs w) l ->
  (forall x a r w1 w2, reached zero w1 -> dlists (dabs w1) l -> dseq (dabs w1) l = dseq (dabs w) l ->
     x ∈ dseq (dabs w) l -> f (Some x) a w1 = Ok (r, w2) ->
     reached zero w2 /\ dlists (dabs w2) l /\ dseq (dabs w2) l = dseq (dabs w) l) ->
  length (dseq (dabs w) l) < fuel ->
  dl_Range fuel l f a w = fold_until f a (dseq (dabs w) l) w.
Proof. exact @range_spec. Qed.
Print Assumptions C18_dllist_Range.
Theorem C18_dllist_Range_pure :
  forall (T : Type) (zero : T) w l f, reached zero w -> dlists (dabs w) l ->
  exists w', dl_exec zero (DRange l f) w =
      Ok (DElems (fst (seen f (dval (dabs w)) (dseq (dabs w) l))) (snd (seen f (dval (dabs w)) (dseq (dabs w) l))), w') /\
    d_same (dabs w) (dabs w').
Proof. exact @range_pure_spec. Qed.
Print Assumptions C18_dllist_Range_pure.
Example C18_example : exists w', dl_run 0 true [DRange 0 (fun _ _ => true); DRange 0 (fun _ v => Nat.leb 15 v || Nat.eqb v 5)] ex_world =
  Some ([DElems true [3; 2; 7; 8; 9]; DElems false [3; 2; 7; 8]], w').
Proof. eexists. vm_compute. reflexivity. Qed.

(** C19: after making a list either way nothing observable differs, every call works, and its
    answers are the same (up to the identity of what it makes). *)
Theorem C19_dllist_zero :
  forall (T : Type) (zero : T) w, reached zero w -> exists l w1 w2,
  dl_exec zero DZero w = Ok (DList l, w1) /\ dl_exec zero DNew w = Ok (DList l, w2) /\
  reached zero w1 /\ reached zero w2 /\ dstate_eq (dabs w1) (dabs w2) /\
  forall c, call_ok (dabs w1) c ->
    exists r1 w1' r2 w2', dl_exec zero c w1 = Ok (r1, w1') /\ dl_exec zero c w2 = Ok (r2, w2') /\ same_answer (dabs w1) r1 r2.
Proof. exact @zero_usable_spec. Qed.
Print Assumptions C19_dllist_zero.
Example C19_example : exists w', dl_run 0 true [DZero; DLen 2; DFront 2; DBack 2; DGet 2 0; DSlice 2; DPushFrontList 2 0; DSlice 2] ex_world =
  Some ([DList 2; DInt 0; DElem None; DElem None; DElem None; DVals []; DUnit; DVals [5; 20; 15; 7; 8]], w').
Proof. eexists. vm_compute. reflexivity. Qed.
