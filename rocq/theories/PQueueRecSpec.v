(** What a priority queue answers, Pops of an empty one included. *)
From Verif Require Import Base PQueueModel PQueueSpec PQueueRecModel.

Inductive rec_behaves {V} (beats : Z -> Z -> Prop) : list (Z * V) -> list (q_call V * option (q_ret V)) -> list (Z * V) -> Prop :=
| rb_nil b : rec_behaves beats b [] b
| rb_len b tr b2 : rec_behaves beats b tr b2 -> rec_behaves beats b ((QLen, Some (QInt (Z.of_nat (length b)))) :: tr) b2
| rb_push b b1 p v tr b2 :
    b1 ≡ₚ (p, v) :: b -> rec_behaves beats b1 tr b2 -> rec_behaves beats b ((QPush p v, Some QUnit) :: tr) b2
| rb_pop b b1 p v tr b2 :
    b ≡ₚ (p, v) :: b1 -> (forall y, y ∈ b -> ~ beats y.1 p) -> rec_behaves beats b1 tr b2 ->
    rec_behaves beats b ((QPop, Some (QPair p v)) :: tr) b2
| rb_empty tr b2 : rec_behaves beats [] tr b2 -> rec_behaves beats [] ((QPop, None) :: tr) b2.
