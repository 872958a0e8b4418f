(** C107: Range of dllist with a callback that calls methods of lists and elements. *)
From Verif Require Import Base DllistModel DllistSpec DllistProofs DllistSteps DllistHistory DllistProperties DllistIterSpec DllistIter.

(** Whatever the callback does to the lists (short of clearing or sorting the list under the element it
    is given), after each turn the loop goes on to the element that then follows in the list, and ends if
    there is none or the element is not in the list any more.  All calls together are a history. *)
Theorem C107_dllist_Range_exact :
  forall (T : Type) (zero : T) (A : Type) (f : option nat -> A -> M (dworld T) (bool * A)) l fuel w a b a' w',
  good_callback zero f -> reached zero w -> dlists (dabs w) l -> dl_Range fuel l f a w = Ok ((b, a'), w') ->
  (exists h, dl_history zero w h w') /\
  match dseq (dabs w) l with [] => b = true /\ a' = a /\ w' = w | e :: _ => exists ts, turns l f w e a ts b a' w' end.
Proof. exact @Range_turns. Qed.
Print Assumptions C107_dllist_Range_exact.
(** The same loop starts at a given element in Range of Element. *)
Theorem C107_element_Range_exact :
  forall (T : Type) (zero : T) (A : Type) (f : option nat -> A -> M (dworld T) (bool * A)) l fuel w e a a' w',
  good_callback zero f -> reached zero w -> dlists (dabs w) l -> e ∈ dseq (dabs w) l -> el_Range fuel (Some e) f a w = Ok (a', w') ->
  (exists h, dl_history zero w h w') /\ exists ts b, turns l f w e a ts b a' w'.
Proof. exact @ERange_turns. Qed.
Print Assumptions C107_element_Range_exact.
Theorem C107_dllist_Range_no_panic :
  forall (T : Type) (zero : T) (A : Type) (f : option nat -> A -> M (dworld T) (bool * A)) l fuel w a,
  good_callback zero f -> (forall x a w, reached zero w -> live (dabs w) x -> f (Some x) a w <> Panic) ->
  reached zero w -> dlists (dabs w) l -> dl_Range fuel l f a w <> Panic.
Proof.
  intros T zero A f l fuel w a Hf Hp Hr Hl. pose proof (reached_inv zero w Hr) as HI. unfold dl_Range. rewrite (bind_ok _ _ _ _ _ (Front_ok w l HI Hl)).
  destruct (seq_of w l) as [|e s] eqn:E; cbn [head]; [by destruct fuel|]. apply (loop_no_panic zero f l Hf Hp); [done..|].
  apply of_list_in; [done..|]. cbn. rewrite E. by left.
Qed.
Print Assumptions C107_dllist_Range_no_panic.
(** Each element given to the callback is in the list at that moment. *)
Theorem C107_dllist_Range_in_list :
  forall (T : Type) (zero : T) (A : Type) (f : option nat -> A -> M (dworld T) (bool * A)) l w e a ts b a' w',
  good_callback zero f -> turns l f w e a ts b a' w' -> reached zero w -> dlists (dabs w) l -> e ∈ dseq (dabs w) l ->
  forall t, t ∈ ts -> t_elem t ∈ dseq (dabs (t_before t)) l.
Proof. intros T zero A f l w e a ts b a' w' Hf Ht Hr Hl He t Hi. by apply (turns_in_list zero f l w e a ts b a' w' Hf Ht Hr Hl He t Hi). Qed.
Print Assumptions C107_dllist_Range_in_list.
(** If no turn puts or moves anything behind the element it is given, the callback gets some of the
    elements there were at the start, each once and in order, and Range returns, if the callback does. *)
Theorem C107_dllist_Range_in_order :
  forall (T : Type) (zero : T) (A : Type) (f : option nat -> A -> M (dworld T) (bool * A)) l w e a ts b a' w',
  good_callback zero f -> turns l f w e a ts b a' w' -> reached zero w -> dlists (dabs w) l -> head (dseq (dabs w) l) = Some e ->
  (forall t, t ∈ ts -> after (t_elem t) (dseq (dabs (t_after t)) l) `sublist_of` after (t_elem t) (dseq (dabs (t_before t)) l)) ->
  (t_elem <$> ts) `sublist_of` dseq (dabs w) l.
Proof.
  intros T zero A f l w e a ts b a' w' Hf Ht Hr Hl He Hs. pose proof (turns_sublist zero f l w e a ts b a' w' Hf Ht Hr Hl) as H.
  destruct (dseq (dabs w) l) as [|x s]; [done|]. injection He as ->. cbn in H. rewrite decide_True in H by done. apply H; [by left|done].
Qed.
Print Assumptions C107_dllist_Range_in_order.
Theorem C107_dllist_Range_ends :
  forall (T : Type) (zero : T) (A : Type) (f : option nat -> A -> M (dworld T) (bool * A)) l fuel w a,
  good_callback zero f -> (forall x a w, reached zero w -> live (dabs w) x -> exists r w', f (Some x) a w = Ok (r, w')) ->
  (forall x a r w w', reached zero w -> x ∈ dseq (dabs w) l -> f (Some x) a w = Ok (r, w') ->
     after x (dseq (dabs w') l) `sublist_of` after x (dseq (dabs w) l)) ->
  reached zero w -> dlists (dabs w) l -> length (dseq (dabs w) l) < fuel ->
  exists b a' w', dl_Range fuel l f a w = Ok ((b, a'), w').
Proof.
  intros T zero A f l fuel w a Hf Hd Hs Hr Hl Hlen. pose proof (reached_inv zero w Hr) as HI. unfold dl_Range. rewrite (bind_ok _ _ _ _ _ (Front_ok w l HI Hl)).
  destruct (seq_of w l) as [|e s] eqn:E; cbn [head dabs dseq] in *; [destruct fuel; [cbn in Hlen; lia|]; by eexists _, _, _|].
  apply (loop_ends zero f l Hf Hd Hs); [done|done|cbn; rewrite E; by left|]. cbn. rewrite E in *. cbn in *. rewrite decide_True by done. lia.
Qed.
Print Assumptions C107_dllist_Range_ends.
(** An element that comes after the current one in each turn, before and after the callback, is given to
    the callback if Range returns true. *)
Theorem C107_dllist_Range_complete :
  forall (T : Type) (zero : T) (A : Type) (f : option nat -> A -> M (dworld T) (bool * A)) l y w e a ts a' w',
  good_callback zero f -> turns l f w e a ts true a' w' -> reached zero w -> dlists (dabs w) l -> head (dseq (dabs w) l) = Some e ->
  (forall t, t ∈ ts -> y ∈ after (t_elem t) (dseq (dabs (t_before t)) l) -> y ∈ after (t_elem t) (dseq (dabs (t_after t)) l)) ->
  y ∈ dseq (dabs w) l -> y ∈ t_elem <$> ts.
Proof.
  intros T zero A f l y w e a ts a' w' Hf Ht Hr Hl He Hs Hy. pose proof (turns_all zero f l y w e a ts a' w' Hf Ht Hr Hl) as H.
  destruct (dseq (dabs w) l) as [|x s]; [done|]. injection He as ->. cbn in H. rewrite decide_True in H by done. apply H; [by left|done|done].
Qed.
Print Assumptions C107_dllist_Range_complete.
(** False of the code: "Range returns true only if it gave the callback all elements".  A callback that
    removes the element it is given ends the loop at once, with the answer true. *)
Theorem C107_dllist_Range_Remove_refuted :
  forall (T : Type) (zero : T) w l e s fuel (m : option nat -> M (dworld T) T),
  m = el_Remove \/ m = dl_Remove l -> reached zero w -> dlists (dabs w) l -> dseq (dabs w) l = e :: s ->
  exists w', dl_Range (S (S fuel)) l (fun x a => m x ;;; ret (true, a ++ [x])) [] w = Ok ((true, [Some e]), w') /\
    dseq (dabs w') l = s /\ reached zero w'.
Proof. exact @remove_stops. Qed.
Print Assumptions C107_dllist_Range_Remove_refuted.
(** False of the code: "each element given is in the list".  A callback that clears the list is given all
    the elements the list had. *)
Theorem C107_dllist_Range_Clear_refuted :
  forall (T : Type) (zero : T) w l fuel, reached zero w -> dlists (dabs w) l -> length (dseq (dabs w) l) < fuel ->
  exists w', dl_Range fuel l (fun x a => dl_Clear l ;;; ret (true, a ++ [x])) [] w = Ok ((true, Some <$> dseq (dabs w) l), w') /\
    dseq (dabs w') l = [].
Proof. exact @clear_goes_on. Qed.
Print Assumptions C107_dllist_Range_Clear_refuted.
(** A callback that appends each time keeps the loop going for ever. *)
Theorem C107_dllist_Range_PushBack_endless :
  forall (T : Type) (zero : T) (A : Type) l v fuel w (a : A),
  reached zero w -> dlists (dabs w) l -> dseq (dabs w) l <> [] ->
  dl_Range fuel l (fun _ a => dl_PushBack l v ;;; ret (true, a)) a w = NoFuel.
Proof. exact @push_endless. Qed.
Print Assumptions C107_dllist_Range_PushBack_endless.

(** List 0 of the example has the elements 3, 2, 7, 8, 9. *)
Definition ex_range (f : option nat -> list (option nat) -> M (dworld nat) (bool * list (option nat))) (b : bool) (seen : list (option nat)) (s : list nat) : Prop :=
  match dl_Range 9 0 f [] ex_world with Ok ((b', seen'), w) => b' = b /\ seen' = seen /\ dseq (dabs w) 0 = s | _ => False end.
Example C107_example_remove_next :
  ex_range (fun x a => n <- el_Next x ;; match n with Some _ => el_Remove n ;;; ret tt | None => ret tt end ;;; ret (true, a ++ [x]))
    true [Some 3; Some 7; Some 9] [3; 7; 9].
Proof. vm_compute. done. Qed.
Example C107_example_insert_before :
  ex_range (fun x a => el_InsertBefore x 1 ;;; ret (true, a ++ [x])) true [Some 3; Some 2; Some 7; Some 8; Some 9] [10; 3; 11; 2; 12; 7; 13; 8; 14; 9].
Proof. vm_compute. done. Qed.
Example C107_example_move :
  ex_range (fun x a => dl_MoveToBack 0 x ;;; ret (true, a ++ [x])) true [Some 3] [2; 7; 8; 9; 3].
Proof. vm_compute. done. Qed.
Example C107_example_remove :
  ex_range (fun x a => el_Remove x ;;; ret (true, a ++ [x])) true [Some 3] [2; 7; 8; 9].
Proof. vm_compute. done. Qed.
Example C107_example_clear :
  ex_range (fun x a => dl_Clear 0 ;;; ret (true, a ++ [x])) true [Some 3; Some 2; Some 7; Some 8; Some 9] [].
Proof. vm_compute. done. Qed.
(** The callback that removes its element is a good one. *)
Example C107_example_good : good_callback 0 (fun x (a : list (option nat)) => el_Remove x ;;; ret (true, a ++ [x])).
Proof.
  intros x a r w w' Hr Hv. pose proof (reached_inv 0 w Hr) as HI.
  assert (Hc : call_ok (dabs w) (DERemove x)) by (split; cbn; intros z Hz; [by apply elem_of_nil in Hz|by apply elem_of_list_singleton in Hz as ->]).
  destruct (total_spec 0 w _ Hr Hc) as (r1 & w1 & E & D & _ & _). intros Hf.
  assert (w1 = w') as ->.
  { cbn [dl_exec] in E. unfold dmap in E. destruct (el_Remove (Some x) w) as [[v w2]| |] eqn:Em; unfold bind in E, Hf; rewrite Em in *; [|done..].
    injection E as <- <-. by injection Hf as <- <-. }
  split; [exists [(DERemove x, r1)]; econstructor; [done|done|constructor]|].
  assert (Hk : known (dabs w) x) by by apply (so_known _ (seqs_ok_dabs _ HI)).
  inversion D; subst; match goal with H : rest _ _ |- _ => by apply H | H : d_same _ _ |- _ => by apply H end.
Qed.
