(** The sorting methods of /repo/vec/vec.go with both sorting functions of golang.org/x/exp/slices at hand.

    In VecModel.v each of the methods takes the one function it calls as a parameter; here a method is given both,
    so that the model says which one it calls. *)
From Verif Require Import Base VecModel.
Local Open Scope Z_scope.

(** slices.SortFunc and slices.SortStableFunc *)
Record sort_lib (T : Type) := SortLib {
  lib_SortFunc : (T -> T -> Z) -> list T -> list T;
  lib_SortStableFunc : (T -> T -> Z) -> list T -> list T }.
Arguments SortLib {T}. Arguments lib_SortFunc {T}. Arguments lib_SortStableFunc {T}.

Section model.
  Context {T : Type} (auto_less auto_equal : option (T -> T -> bool)) (lib : sort_lib T).
  (** Lines 465-476; line 466 calls slices.SortFunc *)
  Definition vec_SortFunc : nat -> (T -> T -> bool) -> (T -> T -> bool) -> M (vworld T) unit := SortFunc (lib_SortFunc lib).
  (** Lines 484-495; line 485 calls slices.SortStableFunc *)
  Definition vec_SortStableFunc : nat -> (T -> T -> bool) -> (T -> T -> bool) -> M (vworld T) unit := SortStableFunc (lib_SortStableFunc lib).
  (** Lines 461-463, 480-482 *)
  Definition vec_Sort (v : nat) : M (vworld T) unit := sort_with auto_less auto_equal v vec_SortFunc.
  Definition vec_SortStable (v : nat) : M (vworld T) unit := sort_with auto_less auto_equal v vec_SortStableFunc.
End model.
