(** What calls do to the capacity of a vector and to the array behind it: vocabulary for C131-C133. *)
From Verif Require Import Base VecModel VecSpec.

Section spec.
  Context {T : Type}.
  Notation W := (vworld T).
  Implicit Types (w : W) (v : nat).

  (** Cap(v) *)
  Definition cap_of w v : nat := s_cap (v_d (w_vec w v)).
  (** The elements stay where they are: same array, same place in it, same capacity.  A slice taken
      before shows what is written through the vector after. *)
  Definition stays w v w' : Prop :=
    s_arr (v_d (w_vec w' v)) = s_arr (v_d (w_vec w v)) /\
    s_off (v_d (w_vec w' v)) = s_off (v_d (w_vec w v)) /\ cap_of w' v = cap_of w v.
  (** The elements go to an array that did not exist before. *)
  Definition moves w v w' : Prop := exists a, s_arr (v_d (w_vec w' v)) = Some a /\ w_an w <= a.
  (** [n] arrays were made. *)
  Definition made w w' (n : nat) : Prop := w_an w' = w_an w + n.

  (** Calls that make a copy for somebody else. *)
  Definition copying (c : v_call T) : Prop :=
    match c with VSplitOff _ | VClone | VCloneToSlice => True | _ => False end.
  (** The room a call asks for, given the lengths before and after. *)
  Definition asks (c : v_call T) (len len' : nat) : nat :=
    match c with VGrow n => len + Z.to_nat n | _ => len' end.
End spec.
