(** Property theorems for what dllist and lhashmap keep in memory (C192-C194). *)
From Verif Require Import Base GoMap GoMapSpec DllistModel DllistSpec DllistProofs DllistSteps DllistHistory DllistProperties.
From Verif Require Import LHashMapModel LHashMapSpec LHashMapProofs LHashMapProperties DllistKeepSpec DllistUnused DllistKeep.

(** C192: from a list, and from an element of it, pointers lead to the list, its root and its
    elements and to nothing else; so what was removed or cleared can be collected.  From an element
    taken out with Remove they lead nowhere, and from no list to it. *)
Theorem C192_list_keeps_its_elements :
  forall (T : Type) (zero : T) w l, reached zero w -> dlists (dabs w) l ->
  (forall c, keeps w (List l) c <-> of_list w l c) /\
  (forall e, e ∈ dseq (dabs w) l -> forall c, keeps w (Elem e) c <-> of_list w l c).
Proof.
  intros T zero w l R Hl. split; [intros c; by eapply list_keeps_spec|].
  intros e He c. by eapply elem_keeps_spec.
Qed.
Print Assumptions C192_list_keeps_its_elements.
Theorem C192_removed_element_keeps_nothing :
  forall (T : Type) (zero : T) w l e call r w', reached zero w -> dlists (dabs w) l -> e ∈ dseq (dabs w) l ->
  call = DRemove l e \/ call = DERemove e -> dl_exec zero call w = Ok (r, w') ->
  (forall c, keeps w' (Elem e) c <-> c = Elem e) /\ forall l', dlists (dabs w') l' -> ~ keeps w' (List l') (Elem e).
Proof. exact @removed_keeps_spec. Qed.
Print Assumptions C192_removed_element_keeps_nothing.
Example C192_example : reached 0 ex_world /\ dlists (dabs ex_world) 0 /\ 2 ∈ dseq (dabs ex_world) 0 /\
  keeps ex_world (List 0) (Elem 9) /\ ~ keeps ex_world (List 0) (Elem 1) /\ ~ keeps ex_world (Elem 2) (List 1).
Proof.
  destruct ex_reached as (R & H0 & H1 & _ & Hs). split; [exact R|]. split; [exact H0|].
  assert (HL := proj1 (C192_list_keeps_its_elements nat 0 ex_world 0 R H0)).
  assert (HE := proj2 (C192_list_keeps_its_elements nat 0 ex_world 0 R H0) 2).
  assert (Hr : l_root ex_world 0 = 0) by (vm_compute; reflexivity).
  unfold of_list in HL, HE. rewrite Hr in HL, HE. rewrite Hs in *. repeat split.
  - right. left.
  - apply HL. right; right. exists 9. split; [reflexivity|]. do 4 right. left.
  - rewrite HL. intros [H|[H|(e & H & He)]]; [discriminate H|discriminate H|]. injection H as <-.
    repeat (apply elem_of_cons in He as [He|He]; [discriminate He|]). by apply elem_of_nil in He.
  - rewrite HE by (right; left). intros [H|[H|(e & H & He)]]; discriminate H.
Qed.

(** C193: from a map pointers lead to one entry for each key, holding that key and its value, and to
    nothing else but the elements of the list, as many as there are keys, and its root; and the
    table holds the keys of the map and no others. *)
Theorem C193_lhashmap_keeps_its_entries :
  forall (K V : Type) (eqb : K -> K -> bool) (upd : bool) (zero_k : K) (zero : V), per eqb ->
  forall w, lh_reached eqb upd zero_k zero w ->
  (forall kv, kv ∈ labs zero_k zero w <-> exists p, lkeeps w Map (Entry p) /\ lh_ent w p = kv) /\
  (forall k, k ∈ (lh_m w).*1 <-> k ∈ (labs zero_k zero w).*1) /\
  (exists ps, NoDup ps /\ length ps = length (labs zero_k zero w) /\ forall p, lkeeps w Map (Entry p) <-> p ∈ ps) /\
  (exists es, NoDup es /\ length es = S (length (labs zero_k zero w)) /\ forall e, lkeeps w Map (Cell (Elem e)) <-> e ∈ es).
Proof. exact @map_keeps_spec. Qed.
Print Assumptions C193_lhashmap_keeps_its_entries.

Definition ex_map : list (lh_call nat nat) := [LStore 1 10; LStore 2 20; LStore 3 30; LStore 1 11; LRemove 2; LLoad 3].
Example C193_example :
  match lh_run Nat.eqb false 0 0 ex_map with
  | Some (_, w) => lh_reached Nat.eqb false 0 0 w /\ labs 0 0 w = [(3, 30); (1, 11)]
  | None => False
  end.
Proof. apply run_reached_with. vm_compute. reflexivity. Qed.

(** C194: what Clear or Sort takes out of a list does keep it. *)
Theorem C194_cleared_element_keeps_list_refuted :
  forall (T : Type) (zero : T) w l e r w', reached zero w -> dlists (dabs w) l -> e ∈ dseq (dabs w) l ->
  dl_exec zero (DClear l) w = Ok (r, w') ->
  no_list_has w' e /\ forall c, of_list w' l c -> keeps w' (Elem e) c.
Proof. exact @cleared_keeps_spec. Qed.
Print Assumptions C194_cleared_element_keeps_list_refuted.
(** Also what is pushed later. *)
Definition after_Clear : list (dl_call (T := nat)) := [DNew; DPushBack 0 10; DClear 0; DPushBack 0 20].
Definition after_Sort : list (dl_call (T := nat)) := [DNew; DPushBack 0 20; DPushBack 0 10; DSort 0 Nat.ltb; DPushBack 0 40].
Definition world_of (cs : list (dl_call (T := nat))) : dworld nat :=
  match dl_run 0 true cs (empty_dworld 0) with Some (_, w) => w | None => empty_dworld 0 end.
Lemma keeps_later cs e e' rs :
  (match dl_run 0 true cs (empty_dworld 0) with Some (rs, w) => Some rs | None => None end) = Some rs ->
  e_list (world_of cs) e = Some 0 -> (n_lists (world_of cs) =? 0) = false ->
  forallb (fun l => negb (existsb (Nat.eqb e) (seq_of (world_of cs) l))) (seq 0 (n_lists (world_of cs))) = true ->
  existsb (Nat.eqb e') (seq_of (world_of cs) 0) = true ->
  reached 0 (world_of cs) /\ no_list_has (world_of cs) e /\ e' ∈ dseq (dabs (world_of cs)) 0 /\
  keeps (world_of cs) (Elem e) (Elem e').
Proof.
  intros Hrun He Hn Hno Hin.
  assert (R : reached 0 (world_of cs)).
  { unfold world_of. destruct (dl_run 0 true cs (empty_dworld 0)) as [[rs' w]|] eqn:E; [|discriminate Hrun].
    eexists. by apply (run_history 0 cs). }
  assert (Hin' : e' ∈ dseq (dabs (world_of cs)) 0).
  { apply existsb_exists in Hin as (x & Hx & E). apply Nat.eqb_eq in E as ->. by apply elem_of_list_In. }
  assert (Hl : dlists (dabs (world_of cs)) 0) by (apply Nat.eqb_neq in Hn; cbn; lia).
  split_and!; [done| |done|].
  - intros l Hl' Hx. rewrite forallb_forall in Hno. specialize (Hno l). cbn in Hl', Hx.
    assert (Hs : In l (seq 0 (n_lists (world_of cs)))) by (apply in_seq; lia). apply Hno in Hs.
    apply negb_true_iff in Hs. assert (existsb (Nat.eqb e) (seq_of (world_of cs) l) = true); [|congruence].
    apply existsb_exists. exists e. split; [by apply elem_of_list_In|apply Nat.eqb_refl].
  - eapply list_field_keeps; [done|exact Hl|exact He|]. right; right. by exists e'.
Qed.
Theorem C194_later_elements_kept_refuted :
  (exists w, w = world_of after_Clear /\ reached 0 w /\ no_list_has w 1 /\ 2 ∈ dseq (dabs w) 0 /\ keeps w (Elem 1) (Elem 2)) /\
  (exists w, w = world_of after_Sort /\ reached 0 w /\ no_list_has w 1 /\ 8 ∈ dseq (dabs w) 0 /\ keeps w (Elem 1) (Elem 8)).
Proof.
  split; eexists; (split; [reflexivity|]); eapply keeps_later; vm_compute; reflexivity.
Qed.
Print Assumptions C194_later_elements_kept_refuted.
