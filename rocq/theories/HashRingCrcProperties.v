(** hashring: what CRC-32 keeps apart (C187-C189). *)
From Coq Require Import ZifyBool ZifyNat.
From Coq Require Import String Ascii.
From Verif Require Import Base GoMap GoMapSpec SetModel SetSpec VecModel VecSpec VecExample HashRingModel HashRingSpec HashRingProperties HashRingCrcSpec HashRingCrc.
From stdpp Require Import pretty.
Local Open Scope string_scope.

(** ** C187 *)
(** The text that is hashed tells the node and the index: two virtual nodes can have the same hash only
    if CRC-32 gives it to two different texts. *)
Theorem C187_texts_differ : forall (n n' : string) (i i' : Z), (0 <= i)%Z -> (0 <= i')%Z ->
  hashKey_string n i = crc32 (label n i) /\ (label n i = label n' i' -> n = n' /\ i = i').
Proof. intros. split; [done|]. by apply label_inj. Qed.
Theorem C187_texts_of_ints_differ : forall n n' i i' : Z, (0 <= i)%Z -> (0 <= i')%Z ->
  hashKey_int n i = crc32 (label (pretty n) i) /\ (label (pretty n) i = label (pretty n') i' -> n = n' /\ i = i').
Proof. intros n n' i i' Hi Hi'. split; [done|]. intros E. apply label_inj in E as [E ->]; [|done..]. split; [|done]. by apply (inj pretty). Qed.
(** Hashes fit in a uint32. *)
Theorem C187_32_bits : forall n i, (0 <= hashKey_string n i < 2 ^ 32)%Z /\ forall m, (0 <= hashKey_int m i < 2 ^ 32)%Z.
Proof. intros. split; [|intros]; apply crc32_range. Qed.
Print Assumptions C187_texts_differ. Print Assumptions C187_texts_of_ints_differ. Print Assumptions C187_32_bits.

(** The check value of CRC-32, and the nodes that look like virtual nodes of others. *)
Example C187_ex : crc32 "123456789" = 0xcbf43926%Z /\ label "a" 10 = "a-10" /\ label "a-1" 0 = "a-1-0" /\ label (pretty (-5)%Z) 3 = "-5-3".
Proof. repeat split; vm_compute; reflexivity. Qed.
(** Not so with negative indices, which the loop of AddNodes does not reach. *)
Example C187_negative : label "a" (-1) = label "a-" 1 /\ "a" <> "a-".
Proof. split; [vm_compute; reflexivity|done]. Qed.

(** ** C188 *)
(** Names of the same length that differ in at most four neighbouring bytes do not collide at the same
    index. *)
Theorem C188_four_bytes : forall pre w w' suf i, String.length w = String.length w' -> String.length w <= 4 -> w <> w' ->
  hashKey_string (String.append pre (String.append w suf)) i <> hashKey_string (String.append pre (String.append w' suf)) i.
Proof. intros pre w w' suf i Hl H4 Hw E. by apply Hw, (same_index pre w w' suf i). Qed.
(** Replicas of a node with indices of the same number of digits, up to four, do not collide. *)
Theorem C188_replicas : forall n i i', (0 <= i)%Z -> (0 <= i')%Z ->
  String.length (pretty i) = String.length (pretty i') -> String.length (pretty i) <= 4 -> i <> i' -> hashKey_string n i <> hashKey_string n i'.
Proof. intros n i i' Hi Hi' Hl H4 Hn E. by apply Hn, (same_node n). Qed.
Print Assumptions C188_four_bytes. Print Assumptions C188_replicas.

Example C188_ex : exists pre w w' suf, String.length w = String.length w' /\ String.length w <= 4 /\ w <> w' /\
  String.append pre (String.append w suf) = "eu-west-17.example.org" /\ String.append pre (String.append w' suf) = "eu-east-17.example.org".
Proof. exists "eu-", "we", "ea", "st-17.example.org". by repeat split; cbn; try lia. Qed.
Example C188_ex_replicas : String.length (pretty 1024%Z) = String.length (pretty 4095%Z) /\ String.length (pretty 1024%Z) <= 4.
Proof. vm_compute. split; [reflexivity|lia]. Qed.
(** Eight bytes are too many. *)
Example C188_eight_bytes : "plumless" <> "buckeroo" /\ forall i, hashKey_string "plumless" i = hashKey_string "buckeroo" i.
Proof.
  split; [done|]. intros i. unfold hashKey_string, crc32. rewrite !crc_bytes_app. f_equal.
Qed.

(** ** C189 *)
(** Names that differ only in their last one or two bytes, in rings of up to ten replicas. *)
Section ring.
Context (upd : bool) (ord : nat -> list (string * unit) -> list (string * unit)) (ordP : forall n l, ord n l ≡ₚ l).
Context (growth : nat -> nat -> nat -> nat).
Context (srt : (string * Z -> string * Z -> Z) -> list (string * Z) -> list (string * Z)) (Hsrt : sorts srt).
Context (pre : string) (k : nat) (replicas : Z) (Hk : k <= 2) (Hr : (replicas <= 10)%Z).
Notation program := (h_program "" String.eqb hashKey_string upd ord growth srt replicas).
Notation GetNode := (h_GetNode "" hashKey_string).

(** No two virtual nodes have the same hash. *)
Theorem C189_no_collisions (P : string -> Prop) : (forall n, P n -> alike pre k n) ->
  forall n n' i i', P n -> P n' -> (0 <= i < replicas)%Z -> (0 <= i' < replicas)%Z ->
  hashKey_string n i = hashKey_string n' i' -> n = n' /\ i = i'.
Proof. intros HP n n' i i' Hn Hn' Hi Hi' E. apply (alike_tell pre k); [auto..|done|lia|lia|done]. Qed.

(** Where a key goes depends on the nodes alone, not on the calls that led there. *)
Theorem C189_placement upd' ord' growth' srt' cs cs' hr w hr' w' key n n' :
  (forall n l, ord' n l ≡ₚ l) -> sorts srt' ->
  program cs = Ok (hr, w) -> h_program "" String.eqb hashKey_string upd' ord' growth' srt' replicas cs' = Ok (hr', w') ->
  (forall m, members cs m <-> members cs' m) -> (forall m, members cs m -> alike pre k m) ->
  GetNode hr key w = Ok (n, w) -> GetNode hr' key w' = Ok (n', w') -> n' = n.
Proof.
  intros O2 S2 E E' Hm Hal G G'.
  apply (C48_placement_depends_on_members "" String.eqb hashKey_string String.eqb_eq upd ord growth srt upd' ord' growth' srt' replicas cs cs' hr w hr' w' key n n' ordP O2 Hsrt S2 E E' Hm);
    [by apply (alike_free pre k)|done..].
Qed.
(** A key of that kind goes to a node. *)
Theorem C189_member cs hr w key : program cs = Ok (hr, w) -> (1 <= replicas)%Z -> (exists m, members cs m) ->
  (forall m, members cs m -> alike pre k m) -> alike pre k key ->
  exists n, GetNode hr key w = Ok (n, w) /\ members cs n.
Proof.
  intros E H1 Hm Hal Hkey.
  apply (C46_GetNode_member "" String.eqb hashKey_string String.eqb_eq upd ord ordP growth srt Hsrt replicas cs hr w key E H1 Hm).
  by apply (alike_key pre k).
Qed.
(** Adding nodes moves keys of that kind only onto the nodes added; removing nodes, only from those. *)
Theorem C189_add cs l hr w hr' w' key n n' :
  program cs = Ok (hr, w) -> program (cs ++ [HAdd l]) = Ok (hr', w') ->
  (forall m, members (cs ++ [HAdd l]) m -> alike pre k m) -> alike pre k key ->
  GetNode hr key w = Ok (n, w) -> GetNode hr' key w' = Ok (n', w') -> n' = n \/ (n' ∈ l /\ ~ members cs n').
Proof.
  intros E E' Hal Hkey.
  apply (C49_add_moves_to_added "" String.eqb hashKey_string String.eqb_eq upd ord ordP growth srt Hsrt replicas cs l hr w hr' w' key n n' E E');
    [by apply (alike_free pre k)|by apply (alike_key pre k)].
Qed.
Theorem C189_remove cs l hr w hr' w' key n n' :
  program cs = Ok (hr, w) -> program (cs ++ [HRemove l]) = Ok (hr', w') ->
  (forall m, members cs m -> alike pre k m) -> alike pre k key ->
  GetNode hr key w = Ok (n, w) -> GetNode hr' key w' = Ok (n', w') -> n' = n \/ (n ∈ l /\ members cs n).
Proof.
  intros E E' Hal Hkey.
  apply (C49_remove_moves_from_removed "" String.eqb hashKey_string String.eqb_eq upd ord ordP growth srt Hsrt replicas cs l hr w hr' w' key n n' E E');
    [by apply (alike_free pre k)|by apply (alike_key pre k)].
Qed.
End ring.
Print Assumptions C189_no_collisions. Print Assumptions C189_placement. Print Assumptions C189_member.
Print Assumptions C189_add. Print Assumptions C189_remove.

(** A ring of "node07", "node12" and "node99" with ten replicas, made in two ways. *)
Definition nodes189 : list (h_call string) := [HAdd ["node07"; "node12"]; HAdd ["node99"]].
Definition nodes189' : list (h_call string) := [HAdd ["node99"; "node50"; "node12"]; HRemove ["node50"]; HAdd ["node07"]].
Example C189_ex : (forall m, members nodes189 m <-> members nodes189' m) /\ (forall m, members nodes189 m -> alike "node" 2 m) /\
  exists n, placed 10 nodes189 "node63" = Some n /\ placed 10 nodes189' "node63" = Some n /\ members nodes189 n.
Proof.
  split; [|split].
  - intros m. cbn. rewrite !elem_of_cons, !elem_of_nil. destruct (decide (m = "node50")) as [->|]; [|tauto].
    split; intros; [|tauto]. naive_solver.
  - intros m. cbn. rewrite !elem_of_cons, !elem_of_nil. intros Hm.
    assert (m = "node07" \/ m = "node12" \/ m = "node99") as [->|[->| ->]] by tauto; [by exists "07"|by exists "12"|by exists "99"].
  - assert (Hx : placed 10 nodes189 "node63" = placed 10 nodes189' "node63") by (vm_compute; reflexivity).
    assert (Hy : placed 10 nodes189 "node63" = Some "node12") by (vm_compute; reflexivity).
    exists "node12". split; [done|]. split; [by rewrite <- Hx|]. cbn. rewrite !elem_of_cons. tauto.
Qed.
