(** Properties of hashring (C46-C51), for every hash function, map iteration order, sort and slice growth. *)
From Coq Require Import String.
From Coq Require Import ZifyBool ZifyNat.
From Verif Require Import Base GoMap GoMapSpec GoMapProofs SetModel SetSpec SetProofs VecModel VecSpec VecProofs VecSteps VecHistory VecQuery VecExample HashRingModel HashRingSpec HashRingProofs.

Section props.
  Context {N : Type} (zero : N) (eqb : N -> N -> bool) (hash : N -> Z -> Z).
  Context (Heq : forall x y, eqb x y = true <-> x = y).
  Notation V := (virtual hash).

  Section one.
  Context (upd : bool) (ord : nat -> list (N * unit) -> list (N * unit)) (ordP : forall n l, ord n l ≡ₚ l).
  Context (growth : nat -> nat -> nat -> nat).
  Context (srt : (N * Z -> N * Z -> Z) -> list (N * Z) -> list (N * Z)) (Hsrt : sorts srt).
  Notation program := (h_program zero eqb hash upd ord growth srt).
  Notation GetNode := (h_GetNode zero hash).

  Lemma get_program replicas cs hr w : program replicas cs = Ok (hr, w) -> rinv eqb hash replicas (members cs) hr w.
  Proof. intros E. destruct (program_ok zero eqb hash Heq upd ord ordP growth srt Hsrt replicas cs) as (hr'&w'&E'&H). congruence. Qed.

  (** C46: what GetNode returns, exactly: the clockwise owner, or the key itself if its hash is that of a
      virtual node, or the zero value if the ring is empty. *)
  Theorem C46_GetNode_result replicas cs hr w key : program replicas cs = Ok (hr, w) ->
    exists n, GetNode hr key w = Ok (n, w) /\
    ((n = zero /\ forall m h, ~ V replicas (members cs) m h) \/
     (n = key /\ exists m, V replicas (members cs) m (hash key 0%Z)) \/
     ((forall m, ~ V replicas (members cs) m (hash key 0%Z)) /\ clockwise (V replicas (members cs)) (hash key 0%Z) n)).
  Proof. intros E. by apply (GetNode_ok zero eqb), get_program. Qed.
  (** A member, if no virtual node of another node has the hash of the key. *)
  Theorem C46_GetNode_member replicas cs hr w key : program replicas cs = Ok (hr, w) ->
    (1 <= replicas)%Z -> (exists m, members cs m) -> key_free hash replicas (members cs) key ->
    exists n, GetNode hr key w = Ok (n, w) /\ members cs n.
  Proof.
    intros E Hr [m0 Hm0] Hk. destruct (C46_GetNode_result replicas cs hr w key E) as (n&Hn&H). exists n. split; [done|].
    destruct H as [[_ H]|[[-> [m Hm]]|[_ (h&[Hn' _]&_)]]]; [|by rewrite <- (Hk m Hm); apply Hm|done].
    destruct (H m0 (hash m0 0%Z)). split; [done|]. exists 0%Z. split; [lia|done].
  Qed.

  (** C47 *)
  Theorem C47_GetNode_clockwise replicas cs hr w key : program replicas cs = Ok (hr, w) ->
    (1 <= replicas)%Z -> (exists m, members cs m) -> (forall m, ~ V replicas (members cs) m (hash key 0%Z)) ->
    exists n, GetNode hr key w = Ok (n, w) /\ clockwise (V replicas (members cs)) (hash key 0%Z) n.
  Proof.
    intros E Hr [m0 Hm0] Hk. destruct (C46_GetNode_result replicas cs hr w key E) as (n&Hn&H). exists n. split; [done|].
    destruct H as [[_ H]|[[-> [m Hm]]|[_ H]]]; [|by destruct (Hk m)|done].
    destruct (H m0 (hash m0 0%Z)). split; [done|]. exists 0%Z. split; [lia|done].
  Qed.

  (** C50: no call panics; rawNodes holds the current nodes; the vector holds exactly [replicas] virtual
      nodes for each of them, in hash order. *)
  Theorem C50_ring_contents replicas cs : exists hr w, program replicas cs = Ok (hr, w) /\
    raw_nodes eqb hr w (members cs) /\
    (forall i j x y, i < j -> ring_seq hr w !! i = Some x -> ring_seq hr w !! j = Some y -> (snd x <= snd y)%Z) /\
    exists ms, NoDup ms /\ (forall n, n ∈ ms <-> members cs n) /\ ring_seq hr w ≡ₚ virtual_nodes hash replicas ms.
  Proof.
    destruct (program_ok zero eqb hash Heq upd ord ordP growth srt Hsrt replicas cs) as (hr&w&E&H). exists hr, w. split; [done|].
    destruct H as [H1 H2 (r&H3&H4&H5) H6 H7 H8]. split; [|split; [|done]].
    - intros n. rewrite H3, contain_ok. rewrite <- H5. case_bool_decide; naive_solver.
    - intros i j x y Hij Hx Hy. pose proof (H7 i j x y Hij Hx Hy) as Hl. unfold hash_less in Hl. lia.
  Qed.
  (** Histories that leave the same nodes leave the same virtual nodes; in the same order, if hashes differ. *)
  Theorem C50_same_members replicas cs cs' hr w hr' w' : program replicas cs = Ok (hr, w) -> program replicas cs' = Ok (hr', w') ->
    (forall n, members cs n <-> members cs' n) ->
    ring_seq hr w ≡ₚ ring_seq hr' w' /\ (collision_free hash replicas (members cs) -> ring_seq hr w = ring_seq hr' w').
  Proof. intros E E' Hm. by eapply (rinv_same eqb); [by apply get_program..|]. Qed.
  (** Re-adding nodes, removing absent nodes, removing the nodes just added. *)
  Theorem C50_no_change replicas cs l hr w : program replicas cs = Ok (hr, w) ->
    forall tail, (tail = [HAdd l] /\ (forall n, n ∈ l -> members cs n)) \/
      (tail = [HRemove l] /\ (forall n, n ∈ l -> ~ members cs n)) \/
      (tail = [HAdd l; HRemove l] /\ (forall n, n ∈ l -> ~ members cs n)) ->
    exists hr' w', program replicas (cs ++ tail) = Ok (hr', w') /\ ring_seq hr w ≡ₚ ring_seq hr' w' /\
      (collision_free hash replicas (members cs) -> ring_seq hr w = ring_seq hr' w').
  Proof.
    intros E tail Ht. destruct (program_ok zero eqb hash Heq upd ord ordP growth srt Hsrt replicas (cs ++ tail)) as (hr'&w'&E'&H').
    exists hr', w'. split; [done|]. eapply (C50_same_members replicas cs (cs ++ tail)); [done|done|].
    intros n. unfold members. rewrite foldl_app. fold (members cs).
    assert (Hdec : members cs n \/ ~ members cs n) by (eapply rinv_dec; by apply get_program).
    destruct Ht as [[-> Ht]|[[-> Ht]|[-> Ht]]]; cbn; specialize (Ht n); tauto.
  Qed.

  (** C51 *)
  Theorem C51_member_maps_to_itself replicas cs hr w n : program replicas cs = Ok (hr, w) -> (1 <= replicas)%Z -> members cs n ->
    GetNode hr n w = Ok (n, w).
  Proof.
    intros E Hr Hn. destruct (C46_GetNode_result replicas cs hr w n E) as (m&Hm&H).
    assert (Hv : V replicas (members cs) n (hash n 0%Z)) by (split; [done|]; exists 0%Z; split; [lia|done]).
    destruct H as [[_ H]|[[-> _]|[H _]]]; [by destruct (H _ _ Hv)|done|by destruct (H _ Hv)].
  Qed.

  (** C49 *)
  Theorem C49_add_moves_to_added replicas cs l hr w hr' w' key n n' :
    program replicas cs = Ok (hr, w) -> program replicas (cs ++ [HAdd l]) = Ok (hr', w') ->
    collision_free hash replicas (members (cs ++ [HAdd l])) -> key_free hash replicas (members (cs ++ [HAdd l])) key ->
    GetNode hr key w = Ok (n, w) -> GetNode hr' key w' = Ok (n', w') ->
    n' = n \/ (n' ∈ l /\ ~ members cs n').
  Proof.
    intros E E' Hc Hk En En'. destruct (C46_GetNode_result _ _ _ _ key E) as (m&Hm&H). destruct (C46_GetNode_result _ _ _ _ key E') as (m'&Hm'&H').
    assert (m = n) as -> by congruence. assert (m' = n') as -> by congruence.
    assert (Hmem : forall x, members (cs ++ [HAdd l]) x <-> members cs x \/ x ∈ l) by (intros x; unfold members; by rewrite foldl_app).
    assert (Hdec : forall x, members cs x \/ ~ members cs x) by (intros x; eapply rinv_dec; by apply get_program).
    assert (Hsub : forall x h, V replicas (members cs) x h -> V replicas (members (cs ++ [HAdd l])) x h) by (intros x h [Hx Hh]; split; [apply Hmem; auto|done]).
    assert (Hnew : forall x h, V replicas (members (cs ++ [HAdd l])) x h -> V replicas (members cs) x h \/ (x ∈ l /\ ~ members cs x)).
    { intros x h [Hx Hh]. apply Hmem in Hx. destruct (Hdec x); [left; by split|right; tauto]. }
    destruct H' as [[-> H']|[[-> [y Hy]]|[H' C']]].
    - left. destruct H as [[-> _]|[[_ [y Hy]]|[_ (h&Hy&_)]]]; [done| |]; destruct (H' _ _ (Hsub _ _ Hy)).
    - pose proof (Hk _ Hy) as ->. destruct (Hnew _ _ Hy) as [Hy'|?]; [|auto]. left.
      destruct H as [[_ H]|[[-> _]|[H _]]]; [by destruct (H _ _ Hy')|done|by destruct (H _ Hy')].
    - destruct C' as (h&Hh&Ch). destruct (Hnew _ _ Hh) as [Hh'|?]; [left|auto].
      destruct H as [[_ H]|[[_ [y Hy]]|[_ C]]]; [by destruct (H _ _ Hh')|by destruct (H' _ (Hsub _ _ Hy))|].
      symmetry. apply (clockwise_unique (V replicas (members cs)) (hash key 0%Z)); [|done|].
      + intros a b x Ha Hb. apply (Hc a b x); by apply Hsub.
      + apply (clockwise_sub (V replicas (members (cs ++ [HAdd l])))); [done| |by exists h].
        intros x [_ Hx]. split; [apply Hh'|done].
  Qed.
  Theorem C49_remove_moves_from_removed replicas cs l hr w hr' w' key n n' :
    program replicas cs = Ok (hr, w) -> program replicas (cs ++ [HRemove l]) = Ok (hr', w') ->
    collision_free hash replicas (members cs) -> key_free hash replicas (members cs) key ->
    GetNode hr key w = Ok (n, w) -> GetNode hr' key w' = Ok (n', w') ->
    n' = n \/ (n ∈ l /\ members cs n).
  Proof.
    intros E E' Hc Hk En En'. destruct (C46_GetNode_result _ _ _ _ key E) as (m&Hm&H). destruct (C46_GetNode_result _ _ _ _ key E') as (m'&Hm'&H').
    assert (m = n) as -> by congruence. assert (m' = n') as -> by congruence.
    assert (Hmem : forall x, members (cs ++ [HRemove l]) x <-> members cs x /\ x ∉ l) by (intros x; unfold members; by rewrite foldl_app).
    assert (Hdec : forall x, members (cs ++ [HRemove l]) x \/ ~ members (cs ++ [HRemove l]) x) by (intros x; eapply rinv_dec; by apply get_program).
    assert (Hsub : forall x h, V replicas (members (cs ++ [HRemove l])) x h -> V replicas (members cs) x h) by (intros x h [Hx Hh]; split; [by apply Hmem|done]).
    assert (Hkeep : forall x h, V replicas (members cs) x h -> V replicas (members (cs ++ [HRemove l])) x h \/ (x ∈ l /\ members cs x)).
    { intros x h [Hx Hh]. destruct (Hdec x) as [Hd|Hd]; [left; by split|right]. split; [|done]. rewrite Hmem in Hd.
      destruct (existsb (eqb x) l) eqn:El.
      - apply existsb_exists in El as (y&Hy&Ey). apply Heq in Ey as ->. by apply elem_of_list_In.
      - destruct Hd. split; [done|]. intros Hin. assert (existsb (eqb x) l = true); [|congruence]. apply existsb_exists. exists x. split; [by apply elem_of_list_In|by apply Heq]. }
    destruct H as [[-> H]|[[-> [y Hy]]|[H C]]].
    - left. destruct H' as [[-> _]|[[_ [y Hy]]|[_ (h&Hy&_)]]]; [done| |]; destruct (H _ _ (Hsub _ _ Hy)).
    - pose proof (Hk _ Hy) as ->. destruct (Hkeep _ _ Hy) as [Hy'|?]; [|auto]. left.
      destruct H' as [[_ H']|[[-> _]|[H' _]]]; [by destruct (H' _ _ Hy')|done|by destruct (H' _ Hy')].
    - destruct C as (h&Hh&Ch). destruct (Hkeep _ _ Hh) as [Hh'|?]; [left|auto].
      destruct H' as [[_ H']|[[_ [y Hy]]|[_ C']]]; [by destruct (H' _ _ Hh')|by destruct (H _ (Hsub _ _ Hy))|].
      apply (clockwise_unique (V replicas (members (cs ++ [HRemove l]))) (hash key 0%Z)); [|done|].
      + intros a b x Ha Hb. apply (Hc a b x); by apply Hsub.
      + apply (clockwise_sub (V replicas (members cs))); [done| |by exists h].
        intros x [_ Hx]. split; [apply Hh'|done].
  Qed.
  End one.

  (** C48: two rings, each with its own history, iteration order, sort and growth. *)
  Theorem C48_placement_depends_on_members upd ord growth srt upd' ord' growth' srt' replicas cs cs' hr w hr' w' key n n' :
    (forall n l, ord n l ≡ₚ l) -> (forall n l, ord' n l ≡ₚ l) -> sorts srt -> sorts srt' ->
    h_program zero eqb hash upd ord growth srt replicas cs = Ok (hr, w) ->
    h_program zero eqb hash upd' ord' growth' srt' replicas cs' = Ok (hr', w') ->
    (forall m, members cs m <-> members cs' m) -> collision_free hash replicas (members cs) ->
    h_GetNode zero hash hr key w = Ok (n, w) -> h_GetNode zero hash hr' key w' = Ok (n', w') ->
    n' = n /\ ring_seq hr' w' = ring_seq hr w.
  Proof.
    intros O1 O2 S1 S2 E E' Hm Hc En En'.
    destruct (C46_GetNode_result upd ord O1 growth srt S1 _ _ _ _ key E) as (m&Hg&H).
    destruct (C46_GetNode_result upd' ord' O2 growth' srt' S2 _ _ _ _ key E') as (m'&Hg'&H').
    assert (m = n) as -> by congruence. assert (m' = n') as -> by congruence.
    assert (Hv : forall x h, V replicas (members cs) x h <-> V replicas (members cs') x h) by (intros x h; by apply virtual_ext).
    split.
    - destruct H as [[-> H]|[[-> [y Hy]]|[H C]]], H' as [[-> H']|[[-> [y' Hy']]|[H' C']]]; try done;
        try (by apply Hv in Hy; destruct (H' _ _ Hy)); try (by apply Hv in Hy'; destruct (H _ _ Hy')); try (by apply Hv in Hy; destruct (H' _ Hy)); try (by apply Hv in Hy'; destruct (H _ Hy')).
      + destruct C' as (h&Hh&_). apply Hv in Hh. by destruct (H _ _ Hh).
      + destruct C as (h&Hh&_). apply Hv in Hh. by destruct (H' _ _ Hh).
      + apply (clockwise_unique (V replicas (members cs)) (hash key 0%Z)); [exact Hc| |done].
        by apply (clockwise_ext (V replicas (members cs'))).
    - symmetry. apply (rinv_same eqb hash replicas (members cs) (members cs') hr w hr' w'); [apply (get_program upd ord O1 growth srt S1 _ _ _ _ E)|apply (get_program upd' ord' O2 growth' srt' S2 _ _ _ _ E')|done|done].
  Qed.
End props.

(** * The code's own hash: CRC-32 of the printed node, a dash and the index *)
Local Open Scope string_scope.
Definition plain_ord : nat -> list (string * unit) -> list (string * unit) := fun _ l => l.
Definition double : nat -> nat -> nat -> nat := fun _ _ n => 2 * n.
Notation sprogram := (h_program "" String.eqb hashKey_string true plain_ord double isort).
Notation sGetNode := (h_GetNode "" hashKey_string).


(** The node a key is mapped to. *)
Definition placed (replicas : Z) (cs : list (h_call string)) (key : string) : option string :=
  match sprogram replicas cs with
  | Ok (hr, w) => match sGetNode hr key w with Ok (n, _) => Some n | _ => None end
  | _ => None
  end.
Lemma placed_ok replicas cs key n : placed replicas cs key = Some n ->
  exists hr w, sprogram replicas cs = Ok (hr, w) /\ sGetNode hr key w = Ok (n, w).
Proof.
  unfold placed. destruct (sprogram replicas cs) as [[hr w]| |] eqn:E; [|done..]. intros H. exists hr, w. split; [reflexivity|].
  destruct (C46_GetNode_result "" String.eqb hashKey_string String.eqb_eq true plain_ord (fun _ l => reflexivity l) double isort (proj1 isort_sorts) _ _ _ _ key E) as (m&Hm&_).
  rewrite Hm in *. by injection H as ->.
Qed.

(** C46 as stated is false: a ring with the single node "plumless" sends "buckeroo" to "buckeroo". *)
Theorem C46_GetNode_member_refuted : exists hr w, sprogram 3 [HAdd ["plumless"]] = Ok (hr, w) /\
  sGetNode hr "buckeroo" w = Ok ("buckeroo", w) /\ ~ members [HAdd ["plumless"]] "buckeroo".
Proof.
  destruct (placed_ok 3 [HAdd ["plumless"]] "buckeroo" "buckeroo") as (hr&w&E&G); [vm_compute; done|].
  exists hr, w. split; [exact E|]. split; [exact G|]. intros [H|H]; [exact H|]. by apply elem_of_list_singleton in H.
Qed.

(** C48 as stated is false: with these two nodes, "x" is sent to whichever was added first. *)
Theorem C48_placement_refuted : exists hr w hr' w',
  sprogram 3 [HAdd ["plumless"]; HAdd ["buckeroo"]] = Ok (hr, w) /\ sprogram 3 [HAdd ["buckeroo"]; HAdd ["plumless"]] = Ok (hr', w') /\
  (forall n, members [HAdd ["plumless"]; HAdd ["buckeroo"]] n <-> members [HAdd ["buckeroo"]; HAdd ["plumless"]] n) /\
  sGetNode hr "x" w = Ok ("plumless", w) /\ sGetNode hr' "x" w' = Ok ("buckeroo", w').
Proof.
  destruct (placed_ok 3 [HAdd ["plumless"]; HAdd ["buckeroo"]] "x" "plumless") as (hr&w&E&G); [vm_compute; done|].
  destruct (placed_ok 3 [HAdd ["buckeroo"]; HAdd ["plumless"]] "x" "buckeroo") as (hr'&w'&E'&G'); [vm_compute; done|].
  exists hr, w, hr', w'. split; [exact E|]. split; [exact E'|]. split; [|split; [exact G|exact G']]. intros n. cbn. rewrite !elem_of_list_singleton. tauto.
Qed.

(** C49 as stated is false: adding "plumless" moves "buckeroo" from "x" to itself. *)
Theorem C49_add_refuted : exists hr w hr' w',
  sprogram 3 [HAdd ["x"]] = Ok (hr, w) /\ sprogram 3 [HAdd ["x"]; HAdd ["plumless"]] = Ok (hr', w') /\
  sGetNode hr "buckeroo" w = Ok ("x", w) /\ sGetNode hr' "buckeroo" w' = Ok ("buckeroo", w').
Proof.
  destruct (placed_ok 3 [HAdd ["x"]] "buckeroo" "x") as (hr&w&E&G); [vm_compute; done|].
  destruct (placed_ok 3 [HAdd ["x"]; HAdd ["plumless"]] "buckeroo" "buckeroo") as (hr'&w'&E'&G'); [vm_compute; done|].
  exists hr, w, hr', w'. split; [exact E|]. split; [exact E'|]. split; [exact G|exact G'].
Qed.

(** * Examples: the hypotheses hold of a ring of three nodes with two replicas *)
Definition three_nodes : list (h_call string) := [HAdd ["a"; "b"]; HRemove ["b"; "z"]; HAdd ["c"; "d"; "a"]; HReset ["a"; "c"; "e"; "c"]].
Lemma three_members n : members three_nodes n <-> n = "a" \/ n = "c" \/ n = "e".
Proof. cbn. rewrite !elem_of_cons, elem_of_nil. tauto. Qed.
Lemma virtual_bool replicas ms (P : string -> Prop) (Q : string -> Z -> Prop) : (forall n, P n -> n ∈ ms) ->
  Forall (fun x => Q (fst x) (snd x)) (virtual_nodes hashKey_string replicas ms) -> forall n h, virtual hashKey_string replicas P n h -> Q n h.
Proof.
  intros Hm Hf n h [Hn Hh]. rewrite Forall_forall in Hf. apply (Hf (n, h)). apply (elem_of_virtual_nodes String.eqb). exact (conj (Hm n Hn) Hh).
Qed.
Example three_collision_free : collision_free hashKey_string 2 (members three_nodes).
Proof.
  intros n m h Hn Hm. revert m Hm. pattern n, h. revert n h Hn.
  apply (virtual_bool 2 ["a"; "c"; "e"]); [intros n; rewrite three_members, !elem_of_cons; tauto|].
  repeat (apply Forall_cons; split; [cbn [fst snd]; intros m Hm; revert Hm; 
    match goal with |- virtual _ _ _ _ ?h -> ?x = _ => intros Hm; 
      refine (virtual_bool 2 ["a"; "c"; "e"] (members three_nodes) (fun m h' => h' = h -> x = m) _ _ m h Hm eq_refl);
      [intros k; rewrite three_members, !elem_of_cons; tauto|vm_compute; repeat constructor; (done || intros; done)] end|]).
  constructor.
Qed.
Example three_placed : exists hr w, sprogram 2 three_nodes = Ok (hr, w) /\ sGetNode hr "key7" w = Ok ("e", w) /\ sGetNode hr "a" w = Ok ("a", w).
Proof.
  destruct (placed_ok 2 three_nodes "key7" "e") as (hr&w&E&G); [vm_compute; done|].
  exists hr, w. split; [exact E|]. split; [exact G|].
  eapply (C51_member_maps_to_itself "" String.eqb hashKey_string String.eqb_eq true plain_ord (fun _ l => reflexivity l) double isort (proj1 isort_sorts)); [exact E|lia|].
  apply three_members. auto.
Qed.
Example three_key_free : key_free hashKey_string 2 (members three_nodes) "key7" /\ forall m, ~ virtual hashKey_string 2 (members three_nodes) m (hashKey_string "key7" 0).
Proof.
  assert (H : forall m h, virtual hashKey_string 2 (members three_nodes) m h -> h <> hashKey_string "key7" 0).
  { apply (virtual_bool 2 ["a"; "c"; "e"]); [intros n; rewrite three_members, !elem_of_cons; tauto|].
    vm_compute. repeat constructor; done. }
  split; intros m Hm; by destruct (H _ _ Hm).
Qed.

Print Assumptions C46_GetNode_result. Print Assumptions C46_GetNode_member. Print Assumptions C46_GetNode_member_refuted.
Print Assumptions C47_GetNode_clockwise. Print Assumptions C48_placement_depends_on_members. Print Assumptions C48_placement_refuted.
Print Assumptions C49_add_moves_to_added. Print Assumptions C49_remove_moves_from_removed. Print Assumptions C49_add_refuted.
Print Assumptions C50_ring_contents. Print Assumptions C50_same_members. Print Assumptions C50_no_change. Print Assumptions C51_member_maps_to_itself.
