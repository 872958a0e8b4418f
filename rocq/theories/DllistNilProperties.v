(** Property theorems for calls on a nil *Dllist (C215). *)
From Verif Require Import Base DllistModel DllistSpec DllistProofs DllistSteps DllistHistory DllistNilModel DllistNilSpec DllistNil.
From Verif Require DllistProperties.

(** [agree m n]: function n of DllistNilModel.v does what m of DllistModel.v does.
    [mixed zero w tr w']: calls tr on lists that are there, and calls on nil between them.
    [n_answer w c]: what call c on nil returns; [None] is a panic. *)

(** C215 *)
Theorem C215_agree :
  forall (T : Type) (l o : nat) (i : Z) (v : T) (e m : option nat),
  agree (T := T) (dmap Some (dl_Clear l)) (n_Clear (Some l)) /\ agree (T := T) (dl_Get l i) (n_Get (Some l) i) /\
  agree (T := T) (dl_Front l) (n_Front (Some l)) /\ agree (T := T) (dl_Back l) (n_Back (Some l)) /\
  agree (dl_Remove l e) (n_Remove (T := T) (Some l) e) /\
  agree (dl_PushFront l v) (n_PushFront (Some l) v) /\ agree (dl_PushBack l v) (n_PushBack (Some l) v) /\
  agree (dl_InsertBefore l v m) (n_InsertBefore (Some l) v m) /\ agree (dl_InsertAfter l v m) (n_InsertAfter (Some l) v m) /\
  agree (T := T) (dl_MoveToFront l e) (n_MoveToFront (Some l) e) /\ agree (T := T) (dl_MoveToBack l e) (n_MoveToBack (Some l) e) /\
  agree (T := T) (dl_MoveBefore l e m) (n_MoveBefore (Some l) e m) /\ agree (T := T) (dl_MoveAfter l e m) (n_MoveAfter (Some l) e m) /\
  agree (T := T) (dl_PushBackList l o) (n_PushBackList (Some l) (Some o)) /\
  agree (T := T) (dl_PushFrontList l o) (n_PushFrontList (Some l) (Some o)) /\
  agree (T := T) (dl_PushBackListTo l o m) (n_PushBackListTo (Some l) (Some o) m) /\
  agree (T := T) (dl_PushFrontListTo l o m) (n_PushFrontListTo (Some l) (Some o) m) /\
  agree (T := T) (dl_Swap l e m) (n_Swap (Some l) e m).
Proof.
  intros T l o i v e m.
  split; [apply agree_Clear|].
  split; [apply agree_Get|].
  split; [apply agree_Front|].
  split; [apply agree_Back|].
  split; [apply agree_Remove|].
  split; [apply agree_PushFront|].
  split; [apply agree_PushBack|].
  split; [apply agree_InsertBefore|].
  split; [apply agree_InsertAfter|].
  split; [apply agree_MoveToFront|].
  split; [apply agree_MoveToBack|].
  split; [apply agree_MoveBefore|].
  split; [apply agree_MoveAfter|].
  split; [apply agree_PushBackList|].
  split; [apply agree_PushFrontList|].
  split; [apply agree_PushBackListTo|].
  split; [apply agree_PushFrontListTo|].
  apply agree_Swap.
Qed.
Print Assumptions C215_agree.
Theorem C215_answers :
  forall (T : Type) (zero : T) tr w c, mixed zero (empty_dworld zero) tr w -> n_ok w c ->
  exists w', n_exec None c w = (n_answer w c, w') /\ untouched w w' /\ d_same (dabs w) (dabs w').
Proof. exact @answer_spec. Qed.
Print Assumptions C215_answers.
Theorem C215_history :
  forall (T : Type) (zero : T) tr w, mixed zero (empty_dworld zero) tr w ->
  behaves_mixed (dabs (empty_dworld zero)) tr (dabs w) /\ seqs_ok (dabs w).
Proof. exact @mixed_spec. Qed.
Print Assumptions C215_history.
Theorem C215_goes_on :
  forall (T : Type) (zero : T) tr w c, mixed zero (empty_dworld zero) tr w -> call_ok (dabs w) c ->
  exists r w', dl_exec zero c w = Ok (r, w') /\ dl_does (dabs w) (dabs w') c r /\ seqs_ok (dabs w').
Proof. exact @mixed_total. Qed.
Print Assumptions C215_goes_on.

(** In the state of [ex_world] element 2 is in list 0 and element 1 in none. *)
Lemma history_mixed {T} (zero : T) w tr w' : dl_history zero w tr w' -> mixed zero w tr w'.
Proof. induction 1; [constructor|by eapply mx_call]. Qed.
Example C215_example :
  let w := DllistProperties.ex_world in
  (exists tr, mixed 0 (empty_dworld 0) tr w) /\ n_ok w (NSwap (Some 1) (Some 2)) /\ n_ok w (NInsertAfter 9 (Some 1)) /\
  n_answer w (NRemove (Some 2)) = Some (NVal 20) /\ n_answer w (NRemove (Some 1)) = None /\
  n_answer w (NSwap (Some 1) (Some 2)) = Some NUnit /\ n_answer w (NInsertAfter 9 (Some 1)) = None /\
  e_next (n_exec None (NInsertAfter 9 (Some 1)) w).2 1 = Some 10.
Proof.
  cbn zeta. split; [destruct DllistProperties.ex_reached as [[tr H] _]; exists tr; by apply history_mixed|].
  split; [|split; [|repeat split; vm_compute; reflexivity]].
  - split; [|intros l Hl; by apply elem_of_nil in Hl]. intros e He.
    assert (H : live (dabs DllistProperties.ex_world) e /\ (e = 1 \/ e = 2)).
    { repeat (apply elem_of_cons in He as [->|He]; [split; [apply liveb_live; vm_compute; reflexivity|auto]|]). by apply elem_of_nil in He. }
    destruct H as [(H1 & H2 & _) [->| ->]]; (split; [exact H1|split; [exact H2|]]); intros H; [split; vm_compute; reflexivity|].
    vm_compute in H. discriminate H.
  - split; [|intros l Hl; by apply elem_of_nil in Hl]. intros e He. apply elem_of_cons in He as [->|He]; [|by apply elem_of_nil in He].
    assert (H : live (dabs DllistProperties.ex_world) 1) by (apply liveb_live; vm_compute; reflexivity).
    destruct H as (H1 & H2 & _). split; [exact H1|split; [exact H2|]]. intros _. split; vm_compute; reflexivity.
Qed.
