(** What is claimed about the background trimming of synccache. *)
From Verif Require Import Base SyncCacheTrimModel.
Local Open Scope Z_scope.

Definition starts (c : nat) (x : tcall) : Prop := (exists d, x = CNew c d) \/ x = CStart c.
Definition closes (c : nat) (x : tcall) : Prop := x = CClose c.

(** No call of the kind [P] is in progress after [tr]; none is made in [tr]. *)
Definition none_running (P : tcall -> Prop) (tr : list tevent) : Prop :=
  forall tr1 t x tr2, tr = tr1 ++ ECall t x :: tr2 -> P x -> EReturn t ∈ tr2.
Definition none_called (P : tcall -> Prop) (tr : list tevent) : Prop := forall t x, ECall t x ∈ tr -> ~ P x.
(** In [tr] a call of the kind [P] has returned, and none of the kind [Q] was running since it began. *)
Definition last_was (P Q : tcall -> Prop) (tr : list tevent) : Prop :=
  exists tr1 t x tr2 tr3, tr = tr1 ++ ECall t x :: tr2 ++ EReturn t :: tr3 /\ P x /\
    EReturn t ∉ tr2 /\ none_running Q tr1 /\ none_called Q (tr2 ++ EReturn t :: tr3).

(** Some call that registers a cache has returned. *)
Definition some_started (tr : list tevent) : Prop :=
  exists tr1 t x c tr2, tr = tr1 ++ ECall t x :: tr2 /\ starts c x /\ EReturn t ∈ tr2.

Definition is_pass (e : tevent) : bool := match e with EPass _ => true | _ => false end.
Definition passes (tr : list tevent) : nat := length (List.filter is_pass tr).

(** Steps of the trimming goroutine itself; its ticker is not meant. *)
Definition own_step (a : taction) : Prop :=
  match a with AGather _ _ | ALook _ _ | ATrim _ => True | _ => False end.

(** Other trimTimes. *)
Definition retime (f : Z -> Z) (a : taction) : taction :=
  match a with ACall t (CNew c d) => ACall t (CNew c (f d)) | a => a end.
Definition retime_event (f : Z -> Z) (e : tevent) : tevent :=
  match e with ECall t (CNew c d) => ECall t (CNew c (f d)) | e => e end.
