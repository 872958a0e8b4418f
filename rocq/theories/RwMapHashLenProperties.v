(** Property theorems for rwmap: Len where some calls had keys that cannot be hashed (C227). *)
From Coq Require Import ZifyBool ZifyNat.
From Verif Require Import Base RwMapModel RwMapSpec RwMapInv RwMapProperties RwMapHashModel RwMapHashSpec RwMapHash RwMapHashLen RwMapHashProperties.

(** C227.  Without Clear, when no call is under way, the counter is the number of keys and of the Stores, Swaps and
    LoadOrStores that panicked. *)
Theorem C227_len_at_rest {K} `{Countable K} {V} (deref : nat -> V) (zero : V) veq hacts (hc : hconfig K V) tr :
  Inhabited K -> hrun deref zero veq new_hconfig hacts = Some (hc, tr) -> (forall t, HEv (EInv t CClear) ∉ tr) -> hquiet hc ->
  s_len (c_sh (h_cf hc)) = (Z.of_nat (size (contents deref (c_sh (h_cf hc)))) + failed_stores tr)%Z.
Proof.
  intros HK Hr Hcl [Hq1 Hq2].
  assert (Hnew : no_clear (@new_hconfig K _ _ V)) by (intros t c p Ht; cbn [new_hconfig new_config h_cf c_thr] in Ht; by rewrite lookup_empty in Ht).
  destruct (hrun_len deref zero veq _ _ _ _ _ _ hrel_new Hnew Hr) as (acts & cf & l & H1 & [H2 H3 _ _] & H4).
  { apply Forall_forall. intros e He [t ->]. by apply (Hcl t). }
  assert (Hthr : c_thr cf = ∅) by (apply map_eq; intros t; by rewrite H3, Hq1, lookup_empty).
  destruct (C69_len_at_quiescence_partial deref zero veq acts cf _ HK H1) as [H5 _]; [|done|].
  { apply no_clear_alone; [|by intros u; rewrite lookup_empty]. intros t Ht. apply (Hcl t). by apply hashed_elem, (drop_len_elem ∅). }
  rewrite Hq2 in H4. change (pending ∅) with 0 in H4. unfold len_off in H4. cbn [new_hconfig h_cf h_bad new_config c_sh new_shared s_len] in H4.
  change (pending ∅) with 0 in H4.
  assert (Hc : contents deref (c_sh (h_cf hc)) = contents deref (c_sh cf)) by (by rewrite (but_len_set _ _ H2)).
  rewrite Hc. lia.
Qed.
Print Assumptions C227_len_at_rest.
(** Also with one key in the map and two calls that panicked, one of them while the key was being stored. *)
Example C227_example :
  (fun x : hconfig nat nat * list (hevent nat nat) => (x.2, (map_to_list (c_thr (h_cf x.1)), map_to_list (h_bad x.1)),
     failed_stores x.2, s_len (c_sh (h_cf x.1)), size (contents ex_deref (c_sh (h_cf x.1))))) <$>
  hrun ex_deref 0 ex_veq new_hconfig ((HAct <$> (AInv 2 (CStore 6 60) :: ticks 2 2)) ++ bad_alone 3 BStore ++ (HAct <$> ticks 2 8) ++
    bad_alone 2 BLoadOrStore ++ bad_alone 2 BLoad) =
  Some ([HEv (EInv 2 (CStore 6 60)); HCall 3 BStore; HPanic 3; HEv (ERet 2 RUnit); HCall 2 BLoadOrStore; HPanic 2; HCall 2 BLoad; HPanic 2],
    ([], []), 2%Z, 3%Z, 1).
Proof. vm_compute. reflexivity. Qed.
