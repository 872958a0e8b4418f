(** A deletedCallback that stores into the cache, one goroutine: theorems. *)
From Coq Require Import ZifyBool ZifyNat.
From Verif Require Import Base GoMap GoMapSpec RwMapAnyModel RwMapAnySpec RwMapAnyTable RwMapAny RwMapAnyProperties SyncCacheAnyModel SyncCacheAnySpec SyncCacheAny SyncCacheStoreModel SyncCacheStoreSpec SyncCacheStore.

Section C208.
  Context {K V : Type} (eqb : K -> K -> bool) (upd : bool) (veq : V -> V -> bool).
  Context (ord : nat -> list (K * nat) -> list (K * nat)) (stores : V -> list (K * V * Z)).
  Notation run := (s_run eqb upd veq ord stores).
  Notation exec := (s_exec eqb upd veq ord stores).

  (** C208: the history so far did what the description says, however often LoadOrStore went around its loop. *)
  Theorem C208_effects fuel (cs : list (timed_s K V)) v0 rs s :
    per eqb -> (forall n l, ord n l ≡ₚ l) -> run fuel (new_cache v0) cs = Some (rs, s) ->
    exists t, effects_s eqb veq stores (no_content v0) cs rs t (c_log s).
  Proof.
    intros P Hord E. destruct (history_s eqb P upd veq ord Hord stores fuel cs _ _ rs s (rel_new eqb v0) (fit_new v0) E) as (t&evs&He&R&F&L).
    exists t. by rewrite L.
  Qed.
  (** The calls other than LoadOrStore return. *)
  Theorem C208_returns fuel (cs : list (timed_s K V)) v0 rs s now chk c :
    per eqb -> (forall n l, ord n l ≡ₚ l) -> run fuel (new_cache v0) cs = Some (rs, s) ->
    (forall k v d, c <> CLoadOrStore k v d) ->
    exists r s', exec fuel now chk c s = Ok (r, s').
  Proof.
    intros P Hord E Hc. destruct (history_s eqb P upd veq ord Hord stores fuel cs _ _ rs s (rel_new eqb v0) (fit_new v0) E) as (t&evs&He&R&F&L).
    destruct (effect_s_ok eqb P upd veq ord Hord stores fuel now chk c s t R F) as (r&s'&_&_&E1&_); [|by exists r, s'].
    destruct c; try done. by destruct (Hc k v d).
  Qed.
  (** LoadOrStore returns after at most two rounds, if what the callback stores has not expired. *)
  Theorem C208_LoadOrStore_returns fuel fuel' (cs : list (timed_s K V)) v0 rs s now chk k v d :
    per eqb -> (forall n l, ord n l ≡ₚ l) -> run fuel (new_cache v0) cs = Some (rs, s) ->
    fresh_stores stores now chk -> 2 <= fuel' ->
    exists r s', s_LoadOrStore eqb upd ord stores now chk fuel' k v d s = Ok (r, s').
  Proof.
    intros P Hord E Hs Hf. destruct (history_s eqb P upd veq ord Hord stores fuel cs _ _ rs s (rel_new eqb v0) (fit_new v0) E) as (t&evs&He&R&F&L).
    destruct fuel' as [|[|fuel']]; [lia..|]. by apply (ls_returns eqb P upd veq ord Hord stores fuel' now chk k v d s t).
  Qed.

  (** C210: what Load finds after Clear was made during the Clear. *)
  Theorem C210_clear fuel (cs : list (timed_s K V)) v0 rs s now chk now' chk' k :
    per eqb -> (forall n l, ord n l ≡ₚ l) -> run fuel (new_cache v0) cs = Some (rs, s) ->
    exists s1 o s2, exec fuel now chk CClear s = Ok (RUnit, s1) /\ exec fuel now' chk' (CLoad k) s1 = Ok (REnt o, s2) /\
      forall e, o = Some e -> c_new s <= e.
  Proof.
    intros P Hord E. destruct (history_s eqb P upd veq ord Hord stores fuel cs _ _ rs s (rel_new eqb v0) (fit_new v0) E) as (t&evs&He&R&F&L).
    destruct (effect_s_ok eqb P upd veq ord Hord stores fuel now chk CClear s t R F eq_refl) as (r&s1&t1&evs1&E1&H1&R1&_).
    pose proof (fit_effect_s eqb veq stores _ _ _ _ _ _ _ F H1) as F1. destruct H1 as [-> H1].
    destruct (effect_s_ok eqb P upd veq ord Hord stores fuel now' chk' (CLoad k) s1 t1 R1 F1 eq_refl) as (r&s2&t2&evs2&E2&H2&_).
    destruct R as (HR&Hent&Hnew). cbn [effect_s] in H2. destruct (t_map t1 k) as [e|] eqn:Ek.
    - assert (Hr : r = REnt None \/ r = REnt (Some e)) by (destruct (expired t1 chk' e); [left|right]; apply H2).
      destruct Hr as [-> | ->]; eexists s1, _, s2; (split; [done|]); (split; [done|]); [done|]. intros e0 [= <-]. rewrite Hnew.
      by destruct (through_found eqb P veq ord Hord stores now _ _ s t t1 evs1 (conj HR (conj Hent Hnew)) F H1 k e Ek) as [Hd|[_ Hd]].
    - destruct H2 as (->&_). exists s1, None, s2. done.
  Qed.
  (** What Load finds after trim was made during the trim or had not expired. *)
  Theorem C210_trim fuel (cs : list (timed_s K V)) v0 rs s now chk now' chk' k :
    per eqb -> (forall n l, ord n l ≡ₚ l) -> run fuel (new_cache v0) cs = Some (rs, s) ->
    exists s1 o s2, exec fuel now chk CTrim s = Ok (RUnit, s1) /\ exec fuel now' chk' (CLoad k) s1 = Ok (REnt o, s2) /\
      forall e, o = Some e -> c_new s <= e \/ (chk 0%nat / 1000000 <= snd (c_ent s e))%Z.
  Proof.
    intros P Hord E. destruct (history_s eqb P upd veq ord Hord stores fuel cs _ _ rs s (rel_new eqb v0) (fit_new v0) E) as (t&evs&He&R&F&L).
    destruct (effect_s_ok eqb P upd veq ord Hord stores fuel now chk CTrim s t R F eq_refl) as (r&s1&t1&evs1&E1&H1&R1&_).
    pose proof (fit_effect_s eqb veq stores _ _ _ _ _ _ _ F H1) as F1. destruct H1 as [-> H1].
    destruct (effect_s_ok eqb P upd veq ord Hord stores fuel now' chk' (CLoad k) s1 t1 R1 F1 eq_refl) as (r&s2&t2&evs2&E2&H2&_).
    destruct R as (HR&Hent&Hnew). cbn [effect_s] in H2. destruct (t_map t1 k) as [e|] eqn:Ek.
    - assert (Hr : r = REnt None \/ r = REnt (Some e)) by (destruct (expired t1 chk' e); [left|right]; apply H2).
      destruct Hr as [-> | ->]; eexists s1, _, s2; (split; [done|]); (split; [done|]); [done|]. intros e0 [= <-]. rewrite Hnew, Hent.
      destruct (through_found eqb P veq ord Hord stores now _ _ s t t1 evs1 (conj HR (conj Hent Hnew)) F H1 k e Ek) as [Hd|[_ Hd]]; [by left|right]. lia.
    - destruct H2 as (->&_). exists s1, None, s2. done.
  Qed.
End C208.

Print Assumptions C208_effects.
Print Assumptions C208_returns.
Print Assumptions C208_LoadOrStore_returns.
Print Assumptions C210_clear.
Print Assumptions C210_trim.

Module Examples.
  Notation D := (fun (_ : nat) (l : list (nat * nat)) => l).
  Local Open Scope Z_scope.
  (** Keys are natural numbers; times in nanoseconds. *)
  Definition at_ms (n : Z) : nat -> Z := fun _ => n * 1000000.
  Lemma nat_per : per Nat.eqb.
  Proof. split; intros; lia. Qed.
  (** The callback keeps what expires: it stores the value again under key 1, for one minute. *)
  Definition again (v : nat) : list (nat * nat * Z) := [(1%nat, v, 60000 * 1000000)].
  Example C208_ex :
    fresh_stores again (at_ms 99000) (at_ms 99001) /\
    exists s, s_run Nat.eqb true Nat.eqb D again 2 (new_cache 0%nat)
      [(at_ms 1000, at_ms 1000, CStore 1%nat 7%nat (5000 * 1000000)); (at_ms 9000, at_ms 9000, CLoad 1%nat); (at_ms 9000, at_ms 9000, CLoad 1%nat);
       (at_ms 99000, at_ms 99000, CLoadOrStore 1%nat 8%nat (5000 * 1000000)); (at_ms 99000, at_ms 99000, CDelete 1%nat); (at_ms 99000, at_ms 99000, CLoadAndDelete 1%nat)] =
      Some ([RUnit; REnt None; REnt (Some 2%nat); RLoaded 4%nat true; RUnit; REnt (Some 6%nat)], s) /\
      c_log s = [EDel 7%nat; EDel 7%nat; EDel 7%nat; EDel 7%nat].
  Proof.
    split.
    - intros v k v' d [= -> -> ->]%elem_of_list_singleton e. done.
    - eexists. split; vm_compute; reflexivity.
  Qed.

  (** Clear of a cache with keys 1, 2 and 3, the callback storing under key 1: the Clear comes to key 3 first (the
      order is reversed here), then to 2 and to 1, where it takes out what the callback stored before; what
      it stores when it gets that value stays. *)
  Notation R := (fun (_ : nat) (l : list (nat * nat)) => rev l).
  Example C210_ex :
    exists s, s_run Nat.eqb true Nat.eqb R again 2 (new_cache 0%nat)
      [(at_ms 1000, at_ms 1000, CStore 1%nat 7%nat (5000 * 1000000)); (at_ms 1000, at_ms 1000, CStore 2%nat 8%nat (5000 * 1000000));
       (at_ms 1000, at_ms 1000, CStore 3%nat 9%nat (5000 * 1000000));
       (at_ms 2000, at_ms 2000, CClear); (at_ms 3000, at_ms 3000, CRange (fun _ _ => true))] =
      Some ([RUnit; RUnit; RUnit; RUnit; RUnit], s) /\
      c_log s = [EDel 9%nat; EDel 8%nat; EDel 8%nat; EUse 1%nat 6%nat].
  Proof. eexists. split; vm_compute; reflexivity. Qed.

  (** A callback that stores the value again, already expired. *)
  Definition dead (v : nat) : list (nat * nat * Z) := [(1%nat, v, -1000000)].
  Example C209_ex : exists s, s_run Nat.eqb true Nat.eqb D dead 2 (new_cache 0%nat) [(at_ms 1000, at_ms 1000, CStore 1%nat 7%nat (-1000000))] = Some ([RUnit], s).
  Proof. eexists. vm_compute. reflexivity. Qed.
End Examples.

Section C209.
  Import Examples.
  (** C209: "LoadOrStore of a cache used by one goroutine returns if its callbacks return" is false: with the
      callback [dead] it does not, however many rounds it is given. *)
  Theorem C209_forever_refuted upd (ord : nat -> list (nat * nat) -> list (nat * nat)) :
    (forall n l, ord n l ≡ₚ l) ->
    exists s, s_run Nat.eqb upd Nat.eqb ord dead 2 (new_cache 0) [(at_ms 1000, at_ms 1000, CStore 1 7 (-1000000)%Z)] = Some ([RUnit], s) /\
      (forall v, store_all Nat.eqb upd ord (at_ms 1000) (dead v) s <> Panic /\ store_all Nat.eqb upd ord (at_ms 1000) (dead v) s <> NoFuel) /\
      forall fuel v d, s_LoadOrStore Nat.eqb upd ord dead (at_ms 1000) (at_ms 1000) fuel 1 v d s = NoFuel.
  Proof.
    intros Hord. pose proof nat_per as P.
    destruct (store_ok Nat.eqb P upd ord Hord (at_ms 1000) 1 7 (-1000000)%Z _ _ (rel_new Nat.eqb 0)) as (s&E&R&L).
    exists s. split; [|split].
    - cbn [s_run s_exec]. unfold bind. rewrite E. done.
    - intros v. destruct (store_all_ok Nat.eqb P upd ord Hord (at_ms 1000) (dead v) s _ R) as (s'&E'&_). by rewrite E'.
    - intros fuel v d. eapply (ls_forever Nat.eqb P upd ord Hord dead (at_ms 1000) (at_ms 1000) 1 v d fuel).
      + intros t e F Ek Ex. eexists. unfold replaced. cbn [dead fold_left stored insert Nat.eqb with_map t_map].
        split; [reflexivity|]. unfold expired, expires. cbn. rewrite fn_lookup_insert. done.
      + exact R.
      + apply fit_stored, fit_new.
      + unfold stored. cbn. reflexivity.
      + done.
  Qed.
End C209.

Print Assumptions C209_forever_refuted.
