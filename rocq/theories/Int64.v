(** [int] and [int64] of Go: arithmetic wraps around. *)
From Verif Require Import Base.
Local Open Scope Z_scope.

Definition wrap64 (z : Z) : Z := (z + 2^63) mod 2^64 - 2^63.
Definition is_int64 (n : Z) : Prop := - 2^63 <= n < 2^63.

Lemma wrap64_id z : is_int64 z -> wrap64 z = z.
Proof. intros H. unfold is_int64, wrap64 in *. rewrite Z.mod_small; lia. Qed.
