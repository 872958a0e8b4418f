(** What is claimed of Lhashmaps that New did not make (C218). *)
From Verif Require Import Base DllistModel LHashMapModel LHashMapZeroModel.

(** An Lhashmap whose fields are not nil. *)
Definition made {K V} (w : lhm K V) : zlhm K V := mk_zlhm (lh_d w) (lh_ent w) (lh_nent w) (Some (lh_m w)) (Some (lh_l w)).

(** A function of LHashMapZeroModel.v that does on those what one of LHashMapModel.v does. *)
Definition lagree {K V A} (m : M (lhm K V) A) (n : ZM (K := K) (V := V) A) : Prop := forall w,
  match m w with Ok (a, w1) => n (made w) = (Some a, made w1) | _ => (n (made w)).1 = None end.

(** What a call on the zero Lhashmap returns; [None] is a panic. *)
Definition zero_answer {K V} (zero : V) (c : lh_call K V) : option (lh_res K V) :=
  match c with
  | LLoad _ => Some (LVal zero false)
  | LRemove _ => Some LUnit
  | LLen => Some (LInt 0)
  | LStore _ _ | LRange _ | LClear => None
  end.
