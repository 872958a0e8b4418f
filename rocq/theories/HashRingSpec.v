(** Specification vocabulary for hashring: a ring is a finite set of nodes, each hashed [replicas] times. *)
From Verif Require Import Base GoMap SetModel VecModel VecSpec HashRingModel.
Local Open Scope Z_scope.

Section spec.
  Context {N : Type} (hash : N -> Z -> Z).

  (** The current nodes after some calls. *)
  Definition member_after (P : N -> Prop) (c : h_call N) (n : N) : Prop :=
    match c with
    | HAdd l => P n \/ n ∈ l
    | HReset l => n ∈ l
    | HRemove l => P n /\ n ∉ l
    end.
  Definition members (cs : list (h_call N)) : N -> Prop := foldl member_after (fun _ => False) cs.

  (** [h] is the hash of a virtual node of [n]. *)
  Definition virtual (replicas : Z) (P : N -> Prop) (n : N) (h : Z) : Prop :=
    P n /\ exists i, 0 <= i < replicas /\ h = hash n i.
  (** [n] owns the first virtual hash above [h], going round at the top. *)
  Definition clockwise (V : N -> Z -> Prop) (h : Z) (n : N) : Prop :=
    exists h', V n h' /\
      ((h < h' /\ forall m h2, V m h2 -> h < h2 -> h' <= h2) \/
       (forall m h2, V m h2 -> h2 <= h /\ h' <= h2)).
  (** Different nodes have different virtual hashes. *)
  Definition collision_free (replicas : Z) (P : N -> Prop) : Prop :=
    forall n m h, virtual replicas P n h -> virtual replicas P m h -> n = m.
  (** No virtual node of another node has the hash of the key. *)
  Definition key_free (replicas : Z) (P : N -> Prop) (key : N) : Prop :=
    forall n, virtual replicas P n (hash key 0) -> n = key.

  (** The virtual nodes of a list of nodes. *)
  Definition virtual_nodes (replicas : Z) (ms : list N) : list (N * Z) :=
    concat (map (fun n => map (fun i => (n, hash n i)) (seqZ 0 replicas)) ms).
  (** The virtual nodes in the ring, in the order of the vector. *)
  Definition ring_seq (hr : ring) (w : hworld N) : list (N * Z) := vseq (snd w) (r_nodes hr).
  (** [ms] is what is in rawNodes. *)
  Definition raw_nodes (eqb : N -> N -> bool) (hr : ring) (w : hworld N) (P : N -> Prop) : Prop :=
    forall n, set_Contain eqb (r_raw hr) n (fst w) = Ok (true, fst w) <-> P n.
End spec.
