(** The cache used by one goroutine, for every key type: theorems. *)
From Coq Require Import ZifyBool ZifyNat.
From Verif Require Import Base GoMap GoMapSpec RwMapAnyModel RwMapAnySpec RwMapAnyTable RwMapAny RwMapAnyProperties SyncCacheAnyModel SyncCacheAnySpec SyncCacheAny.

Section C205.
  Context {K V : Type} (eqb : K -> K -> bool) (upd : bool) (veq : V -> V -> bool) (has_cb : bool).
  Context (ord : nat -> list (K * nat) -> list (K * nat)).
  Notation run := (c_run eqb upd veq has_cb ord).
  Notation exec := (c_exec eqb upd veq has_cb ord).

  (** C205. *)
  Theorem C205_effects (cs : list (timed K V)) v0 :
    per eqb -> (forall n l, ord n l ≡ₚ l) ->
    exists rs s t, run (new_cache v0) cs = Some (rs, s) /\ effects eqb veq has_cb (no_content v0) cs rs t (c_log s).
  Proof.
    intros P Hord. destruct (history_ok eqb P upd veq has_cb ord Hord cs _ _ (rel_new eqb v0) (fit_new v0)) as (rs&s&t&evs&E&He&R&F&L).
    exists rs, s, t. split; [done|]. by rewrite L.
  Qed.
  (** In a cache any calls have led to: after trim, only entries that have not expired are found. *)
  Theorem C205_trim (cs : list (timed K V)) v0 rs s now now' k :
    per eqb -> (forall n l, ord n l ≡ₚ l) -> run (new_cache v0) cs = Some (rs, s) ->
    exists s1 o s2, exec now CTrim s = Ok (RUnit, s1) /\ exec now' (CLoad k) s1 = Ok (REnt o, s2) /\
      forall e, o = Some e -> (now 0%nat / 1000000 <= snd (c_ent s1 e))%Z.
  Proof.
    intros P Hord E. destruct (reached eqb P upd veq has_cb ord Hord cs v0 rs s E) as (t&_&R&F).
    destruct (effect_ok eqb P upd veq has_cb ord Hord now CTrim s t R F) as (r&s1&t1&evs&E1&[-> H1]&R1&_).
    destruct H1 as (l&(_&Hl&_)&->&_). set (t1 := with_map _ t) in *.
    assert (F1 : fit t1). { apply fit_with; [done|]. intros j. unfold sweep_map. repeat case_match; auto. }
    destruct (effect_ok eqb P upd veq has_cb ord Hord now' (CLoad k) s1 t1 R1 F1) as (r&s2&t2&evs2&E2&H2&_).
    assert (Ht1 : forall e, t_map t1 k = Some e -> (now 0%nat / 1000000 <= snd (t_ent t e))%Z).
    { intros e. cbn. unfold sweep_map, visit.
      replace (visited _ l) with l. 2:{ clear. induction l as [|p l IH]; [done|]. cbn. rewrite orb_true_r. by f_equal. }
      rewrite Hl. destruct (t_map t k) as [e'|] eqn:Et; [|done]. unfold expires. destruct (snd (t_ent t e') <? _)%Z eqn:Ed; [done|]. intros [= ->]. lia. }
    cbn [effect] in H2. destruct (t_map t1 k) as [e|] eqn:Ek.
    - assert (Hr : r = REnt None \/ r = REnt (Some e)) by (destruct (expired t1 now' e); [left|right]; apply H2).
      destruct Hr as [-> | ->]; eexists s1, _, s2; (split; [done|]); (split; [done|]); [done|]. intros e0 [= <-].
      destruct R1 as (_&He&_). rewrite He. by apply Ht1.
    - destruct H2 as (->&_). exists s1, None, s2. done.
  Qed.
  (** After Clear no key is found. *)
  Theorem C205_clear (cs : list (timed K V)) v0 rs s now now' k :
    per eqb -> (forall n l, ord n l ≡ₚ l) -> run (new_cache v0) cs = Some (rs, s) ->
    exists s1 s2, exec now CClear s = Ok (RUnit, s1) /\ exec now' (CLoad k) s1 = Ok (REnt None, s2).
  Proof.
    intros P Hord E. destruct (reached eqb P upd veq has_cb ord Hord cs v0 rs s E) as (t&_&R&F).
    destruct (effect_ok eqb P upd veq has_cb ord Hord now CClear s t R F) as (r&s1&t1&evs&E1&H1&R1&_).
    pose proof (fit_effect eqb veq has_cb ord Hord now CClear t r t1 evs F H1) as F1. destruct H1 as [-> H1].
    destruct (effect_ok eqb P upd veq has_cb ord Hord now' (CLoad k) s1 t1 R1 F1) as (r&s2&t2&evs2&E2&H2&_).
    assert (Ht1 : t_map t1 k = None).
    { destruct has_cb; [|by destruct H1 as [-> _]]. destruct H1 as (l&(_&Hl&_)&->&_). cbn. unfold sweep_map, visit.
      replace (visited _ l) with l. 2:{ clear. induction l as [|p l IH]; [done|]. cbn. by f_equal. }
      rewrite Hl. by destruct (t_map t k). }
    cbn [effect] in H2. rewrite Ht1 in H2. destruct H2 as (->&_). by exists s1, s2.
  Qed.

  (** C206. *)
  Lemma odd_visited (t : @content K V) now l : (forall e, expired t now e = false) ->
    used (sweep_events eqb has_cb t (expired t now) true (visit (expired t now) (fun _ _ => true) l)) = l.
  Proof.
    intros Hx. unfold visit, sweep_events. induction l as [|[k e] l IH]; [done|]. cbn. rewrite orb_true_r. cbn. rewrite Hx. cbn. by f_equal.
  Qed.
  Theorem C206_kept (cs : list (timed K V)) v0 rs s now :
    per eqb -> (forall n l, ord n l ≡ₚ l) -> run (new_cache v0) cs = Some (rs, s) ->
    (forall e, (now e / 1000000 <= snd (c_ent s e))%Z) ->
    exists s1 evs, exec now (CRange (fun _ _ => true)) s = Ok (RUnit, s1) /\ c_log s1 = c_log s ++ evs /\
      map (fun p => (p.1, fst (c_ent s p.2))) (List.filter (odd eqb) (used evs)) ≡ₚ c_kept eqb has_cb [] cs.
  Proof.
    intros P Hord E Hnow. destruct (odd_history eqb P upd veq has_cb ord Hord cs _ _ (rel_new eqb v0) (fit_new v0)) as (rs'&s'&t&evs0&E'&R&F&L&Ho).
    rewrite E in E'. injection E' as <- <-. change (odd_values (no_content v0)) with (@nil (K * V)) in Ho.
    destruct (effect_ok eqb P upd veq has_cb ord Hord now (CRange (fun _ _ => true)) s t R F) as (r&s1&t1&evs&E1&[-> H1]&R1&L1).
    exists s1, evs. split; [done|]. split; [done|]. destruct H1 as (l&(_&_&Hl)&_&->). destruct R as (_&He&_).
    rewrite odd_visited. 2:{ intros e. unfold expired, expires. rewrite <- He. specialize (Hnow e). lia. }
    rewrite Hl, <- Ho, He. done.
  Qed.
  (** With a deletedCallback the map never gets smaller than the number of pairs stored under such keys. *)
  Theorem C206_grows (cs : list (timed K V)) v0 rs s :
    per eqb -> (forall n l, ord n l ≡ₚ l) -> run (new_cache v0) cs = Some (rs, s) ->
    (Z.of_nat (length (c_kept eqb has_cb [] cs)) <= a_len (c_map s))%Z.
  Proof.
    intros P Hord E. destruct (odd_history eqb P upd veq has_cb ord Hord cs _ _ (rel_new eqb v0) (fit_new v0)) as (rs'&s'&t&evs0&E'&R&F&L&Ho).
    rewrite E in E'. injection E' as <- <-. change (odd_values (no_content v0)) with (@nil (K * V)) in Ho. rewrite <- Ho.
    destruct R as ((_&Hlen&_&Hodd)&_). rewrite Hlen. unfold odd_values. rewrite map_length, <- Hodd.
    assert (forall l : list (K * nat), length (List.filter (odd eqb) l) <= length l) as Hle.
    { induction l as [|p l IH]; [done|]. cbn. destruct (odd eqb p); cbn; lia. }
    specialize (Hle (all (c_map s))). lia.
  Qed.
End C205.

(** A history with NaN, 0 and -0; times in nanoseconds. *)
Definition at_s (n : Z) : nat -> Z := fun _ => (n * 1000000000)%Z.
Definition sec (n : Z) : Z := (n * 1000000000)%Z.
Definition ex_cache : list (timed float_key nat) :=
  [(at_s 0, CStore NaN 10 (sec 5)); (at_s 0, CStore (Zero false) 11 (sec 5)); (at_s 1, CLoad (Zero true)); (at_s 1, CLoad NaN);
   (at_s 1, CLoadOrStore NaN 12 (sec 50)); (at_s 2, CRange (fun _ _ => true)); (at_s 6, CTrim); (at_s 6, CLoad (Zero false));
   (at_s 7, CLoadOrStore (Num 1) 13 (sec 1)); (at_s 9, CLoadOrStore (Num 1) 14 (sec 1)); (at_s 10, CClear); (at_s 10, CRange (fun _ _ => true))].
Example ex_cache_run :
  match c_run float_eqb false Nat.eqb true (fun _ l => l) (new_cache 0) ex_cache with
  | Some (rs, s) =>
      rs = [RUnit; RUnit; REnt (Some 2); REnt None; RLoaded 3 false; RUnit; RUnit; REnt None;
            RLoaded 4 false; RLoaded 6 false; RUnit; RUnit] /\
      c_log s = [EUse NaN 1; EUse (Zero false) 2; EUse NaN 3; EDel 11; EDel 13; EDel 14; EUse NaN 3] /\ a_len (c_map s) = 2%Z
  | None => False
  end.
Proof. vm_compute. done. Qed.
Example ex_cache_effects : exists rs s t, c_run float_eqb false Nat.eqb true (fun _ l => l) (new_cache 0) ex_cache = Some (rs, s) /\
  effects float_eqb Nat.eqb true (no_content 0) ex_cache rs t (c_log s).
Proof. by apply C205_effects; [apply float_per|]. Qed.
Example ex_cache_kept : c_kept float_eqb true [] ex_cache = [(NaN, 12); (NaN, 10)] /\ c_kept float_eqb false [] ex_cache = [].
Proof. split; reflexivity. Qed.
(** A clock at which nothing has expired. *)
Example ex_cache_range :
  match c_run float_eqb false Nat.eqb true (fun _ l => l) (new_cache 0) ex_cache with
  | Some (_, s) =>
      match c_exec float_eqb false Nat.eqb true (fun _ l => l) (fun e => snd (c_ent s e) * 1000000)%Z (CRange (fun _ _ => true)) s with
      | Ok (_, s1) => used (drop (length (c_log s)) (c_log s1)) = [(NaN, 1); (NaN, 3)] /\ map (fun e => fst (c_ent s e)) [1; 3] = [10; 12]
      | _ => False
      end
  | None => False
  end.
Proof. vm_compute. done. Qed.

(** C207. With a deletedCallback, Clear does not empty the cache, and trim does not take out every expired
    entry; without one, Clear does. *)
Theorem C207_clear_refuted :
  exists (cs : list (timed float_key nat)) rs s,
    c_run float_eqb false Nat.eqb true (fun _ l => l) (new_cache 0) (cs ++ [(at_s 1, CClear); (at_s 1, CRange (fun _ _ => true))]) = Some (rs, s) /\
    c_log s = [EUse NaN 1] /\
    match c_run float_eqb false Nat.eqb false (fun _ l => l) (new_cache 0) (cs ++ [(at_s 1, CClear); (at_s 1, CRange (fun _ _ => true))]) with
    | Some (_, s) => c_log s = []
    | None => False
    end.
Proof. exists [(at_s 0, CStore NaN 7 (sec 5))]. eexists _, _. split; [vm_compute; reflexivity|]. split; vm_compute; reflexivity. Qed.
Theorem C207_trim_refuted :
  exists (cs : list (timed float_key nat)) rs s,
    c_run float_eqb false Nat.eqb false (fun _ l => l) (new_cache 0) (cs ++ [(at_s 100, CTrim)]) = Some (rs, s) /\
    a_len (c_map s) = 1%Z /\ map snd (all (c_map s)) = [1] /\ (snd (c_ent s 1) < at_s 100 0 / 1000000)%Z.
Proof. exists [(at_s 0, CStore NaN 7 (sec 5))]. eexists _, _. split; [vm_compute; reflexivity|]. split; [vm_compute; reflexivity|]. split; vm_compute; reflexivity. Qed.

Print Assumptions C205_effects.
Print Assumptions C205_trim.
Print Assumptions C205_clear.
Print Assumptions C206_kept.
Print Assumptions C206_grows.
Print Assumptions C207_clear_refuted.
Print Assumptions C207_trim_refuted.
