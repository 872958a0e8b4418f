(** What an execution of rwmap costs: how often something happens in it. *)
From Verif Require Import Base RwMapModel.

Section spec.
Context {K : Type} `{Countable K} {V : Type}.
Context (deref : nat -> V) (zero : V) (veq : V -> V -> option bool).
Local Notation act := (act deref zero veq).

(** The sum of [f] over the actions of an execution, [f] being given the state before the action. *)
Fixpoint total (f : config K V -> action K V -> nat) (cf : config K V) (acts : list (action K V)) : nat :=
  match acts with
  | [] => 0
  | a :: acts => f cf a + match act cf a with Some (cf', _) => total f cf' acts | None => 0 end
  end.

(** A call is made; a goroutine takes a step. *)
Definition is_call (cf : config K V) (a : action K V) : nat := match a with AInv _ _ => 1 | AStep _ _ => 0 end.
Definition is_step (cf : config K V) (a : action K V) : nat := match a with AInv _ _ => 0 | AStep _ _ => 1 end.

(** dirtyLocked goes on to the next entry of the read map (line 559). *)
Definition is_copy (cf : config K V) (a : action K V) : nat :=
  match a with
  | AStep t (LKey _) => match c_thr cf !! t with Some (_, P_dl _) => 1 | _ => 0 end
  | _ => 0
  end.

(** The number of entries in the map that a Range or SlowLen is about to go through, at the step where
    it gets hold of it (lines 479-493). *)
Definition ranged (cf : config K V) (a : action K V) : nat :=
  match a with
  | AStep t LTick =>
      match c_thr cf !! t with
      | Some ((CRange | CSlowLen), (P_read | P_read2)) => if s_am (c_sh cf) then 0 else size (s_rd (c_sh cf))
      | Some (_, P_prom) =>
          match s_dirty (c_sh cf) with Some d => size d | None => 0 end
      | _ => 0
      end
  | _ => 0
  end.

(** A compare-and-swap fails, since the entry is not what the goroutine loaded before. *)
Definition cas_fails (cf : config K V) (a : action K V) : nat :=
  match a with
  | AStep t LTick =>
      match c_thr cf !! t with
      | Some (_, E_cas e x _) => if decide (s_ent (c_sh cf) e = x) then 0 else 1
      | Some (_, P_dlc _ e _) => if decide (s_ent (c_sh cf) e = SNil) then 0 else 1
      | _ => 0
      end
  | _ => 0
  end.

(** One goroutine at a time: no call is made while another is in progress. *)
Fixpoint one_at_a_time (cf : config K V) (acts : list (action K V)) : Prop :=
  match acts with
  | [] => True
  | a :: acts =>
      match a with AInv _ _ => c_thr cf = ∅ | AStep _ _ => True end /\
      match act cf a with Some (cf', _) => one_at_a_time cf' acts | None => True end
  end.

(** Neither Range nor SlowLen is called. *)
Definition no_ranges (acts : list (action K V)) : Prop :=
  forall t c, AInv t c ∈ acts -> c <> CRange /\ c <> CSlowLen.
End spec.
