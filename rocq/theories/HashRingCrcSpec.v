(** hashring: the texts that are hashed, and families of names. *)
From Coq Require Import String Ascii.
From Verif Require Import Base HashRingModel HashRingSpec.
From stdpp Require Import pretty.
Local Open Scope Z_scope.

(** hashKey, hashring.go:85-87, for nodes of an integer type: %v prints them in decimal. *)
Definition hashKey_int (key : Z) (index : Z) : Z := hashKey_string (pretty key) index.

(** The text of virtual node [index] of [key]: what fmt.Sprintf("%v-%d", key, index) gives for strings. *)
Definition label (key : string) (index : Z) : string := String.append key (String.append "-" (pretty index)).

(** Names that are alike up to the last [k] bytes. *)
Definition alike (pre : string) (k : nat) (n : string) : Prop :=
  exists w, String.length w = k /\ n = String.append pre w.
