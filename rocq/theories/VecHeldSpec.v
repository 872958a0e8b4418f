(** The cells of its array that a vector still holds: vocabulary for C171, C172. *)
From Verif Require Import Base VecModel VecSpec.

Section spec.
  Context {T : Type}.
  Implicit Types (w : vworld T) (v : nat).
  (** All cells up to the capacity, and those behind the last element. *)
  Definition held w v : list T :=
    match s_arr (v_d (w_vec w v)) with
    | None => []
    | Some a => take (s_cap (v_d (w_vec w v))) (drop (s_off (v_d (w_vec w v))) (w_arr w a))
    end.
  Definition behind w v : list T := drop (length (vseq w v)) (held w v).
  (** Nothing is kept behind the last element that was not kept there before. *)
  Definition lets_go (zero : T) w v w' : Prop := forall x, x ∈ behind w' v -> x = zero \/ x ∈ behind w v.
End spec.
