(** Specification of lhashmap: a list of entries, the most recently stored or loaded first. *)
From Verif Require Import Base GoMap GoMapSpec DllistModel DllistSpec LHashMapModel.
Local Open Scope Z_scope.

Section spec.
  Context {K V : Type} (eqb : K -> K -> bool) (upd : bool) (zero_k : K) (zero : V).
  Implicit Types (s : list (K * V)).

  (** [==] of Go: symmetric and transitive (NaN is not equal to itself). *)
  Definition per : Prop :=
    (forall x y, eqb x y = true -> eqb y x = true) /\
    (forall x y z, eqb x y = true -> eqb y z = true -> eqb x z = true).

  (** No two entries have equal keys. *)
  Definition one_each s : Prop :=
    forall i j x y, s !! i = Some x -> s !! j = Some y -> eqb x.1 y.1 = true -> i = j.
  (** No entry has key k. *)
  Definition absent s (k : K) : Prop := forall x, x ∈ s -> eqb x.1 k = false.

  Inductive lh_does s : list (K * V) -> lh_call K V -> lh_res K V -> Prop :=
  | ll_Load k k' v pre post : s = pre ++ (k', v) :: post -> eqb k' k = true ->
      lh_does s ((k', v) :: pre ++ post) (LLoad k) (LVal v true)
  | ll_Load_none k : absent s k -> lh_does s s (LLoad k) (LVal zero false)
  | ll_Store k v k' v' pre post : s = pre ++ (k', v') :: post -> eqb k' k = true ->
      lh_does s ((k', v) :: pre ++ post) (LStore k v) LUnit
  | ll_Store_new k v : absent s k -> lh_does s ((k, v) :: s) (LStore k v) LUnit
  | ll_Remove k k' v pre post : s = pre ++ (k', v) :: post -> eqb k' k = true ->
      lh_does s (pre ++ post) (LRemove k) LUnit
  | ll_Remove_none k : absent s k -> lh_does s s (LRemove k) LUnit
  | ll_Len : lh_does s s LLen (LInt (Z.of_nat (length s)))
  | ll_Range f : lh_does s s (LRange f) (LSeen (visited (fun x => f x.1 x.2) s))
  | ll_Clear : lh_does s [] LClear LUnit.

  Inductive lh_behaves : list (K * V) -> list (lh_call K V * lh_res K V) -> list (K * V) -> Prop :=
  | lb_nil s : lh_behaves s [] s
  | lb_cons s c r s1 h s2 : lh_does s s1 c r -> one_each s1 -> lh_behaves s1 h s2 -> lh_behaves s ((c, r) :: h) s2.

  (** Reading the structs: the entries in the order of the list. *)
  Definition kv_of (w : lhm K V) (e : nat) : K * V :=
    match e_val (lh_d w) e with Some p => lh_ent w p | None => (zero_k, zero) end.
  Definition lh_ids (w : lhm K V) : list nat := seq_of (lh_d w) (lh_l w).
  Definition labs (w : lhm K V) : list (K * V) := map (kv_of w) (lh_ids w).

  (** A history from New. *)
  Inductive lh_steps : lhm K V -> list (lh_call K V * lh_res K V) -> lhm K V -> Prop :=
  | lst_nil w : lh_steps w [] w
  | lst_cons w c r w1 h w2 :
      lh_exec eqb upd zero c w = Ok (r, w1) -> lh_steps w1 h w2 -> lh_steps w ((c, r) :: h) w2.
  Definition lh_history (h : list (lh_call K V * lh_res K V)) (w : lhm K V) : Prop :=
    exists w0, lh_New zero_k zero = Ok (tt, w0) /\ lh_steps w0 h w.
  Definition lh_reached (w : lhm K V) : Prop := exists h, lh_history h w.

  (** The value last stored for k and not removed since, straight from the list of calls. *)
  Fixpoint last_stored (k : K) (cur : option V) (h : list (lh_call K V * lh_res K V)) : option V :=
    match h with
    | [] => cur
    | (LStore k' v, _) :: h => last_stored k (if eqb k' k then Some v else cur) h
    | (LRemove k', _) :: h => last_stored k (if eqb k' k then None else cur) h
    | (LClear, _) :: h => last_stored k None h
    | _ :: h => last_stored k cur h
    end.

  (** Running a list of calls, for the examples. *)
  Fixpoint lh_runs (cs : list (lh_call K V)) (w : lhm K V) : option (list (lh_res K V) * lhm K V) :=
    match cs with
    | [] => Some ([], w)
    | c :: cs =>
        match lh_exec eqb upd zero c w with
        | Ok (r, w1) => match lh_runs cs w1 with Some (rs, w2) => Some (r :: rs, w2) | None => None end
        | _ => None
        end
    end.
  Definition lh_run (cs : list (lh_call K V)) : option (list (lh_res K V) * lhm K V) :=
    match lh_New zero_k zero with Ok (_, w) => lh_runs cs w | _ => None end.

  (** Calling [f] on each entry of a fixed list, in order, until it says stop. *)
  Fixpoint lh_fold {A} (f : K -> V -> A -> M (lhm K V) (bool * A)) (a : A) (s : list (K * V)) : M (lhm K V) A :=
    match s with
    | [] => ret a
    | x :: s => ba <- f x.1 x.2 a ;; if fst ba then lh_fold f (snd ba) s else ret (snd ba)
    end.
End spec.
