(** Property C112: synccache with 64-bit integers *)
From Coq Require Import ZifyBool.
From Verif Require Import Base Int64 RwMapModel RwMapSpec SyncCacheModel SyncCacheSpec SyncCacheProperties SyncCache64Spec SyncCache64.

Section properties.
Context {K : Type} `{Countable K} {V : Type}.
Context (deref : nat -> nat) (veq : V -> V -> option bool) (has_cb : bool).

(** With half a million AddExpirations or fewer (of any duration), no addition overflows: the executions
    with 64-bit integers are those of the model, so the other theorems on synccache hold of them. *)
Theorem C112_synccache_int64 (xs : list (wact K V)) : Forall mild xs -> (Z.of_nat (adds xs) <= 500000)%Z ->
  wrun64 deref veq has_cb w_init xs = wrun deref veq has_cb w_init xs.
Proof. intros Hm Ha. by apply (run_64 deref veq has_cb xs 0 w_init bounded_init Hm). Qed.
(** Executions without AddExpiration never differ. *)
Corollary C112_synccache_no_AddExpiration (xs : list (wact K V)) : Forall mild xs -> (forall e d, XLoc (KAdd e d) ∉ xs) ->
  wrun64 deref veq has_cb w_init xs = wrun deref veq has_cb w_init xs.
Proof.
  intros Hm Ha. apply C112_synccache_int64; [done|]. assert (adds xs = 0) as ->; [|lia].
  unfold adds. clear Hm. induction xs as [|x xs IH]; [done|]. cbn.
  assert (is_add x = false) as -> by (destruct x as [[]| |]; try done; exfalso; eapply Ha; by left).
  apply IH. intros e d Hin. by eapply Ha, elem_of_list_further.
Qed.

(** False of the code: "AddExpiration with a positive duration does not make an entry expire".  In every
    state, an entry whose expiration is set to the last moment there is (time.UnixMilli(math.MaxInt64),
    "never") and then extended by one millisecond has expired at every time after that; without
    wrap-around it would never expire. *)
Theorem C112_AddExpiration_overflow_refuted (w : world K V) e v x : c_ent (w_cl w) !! e = Some (v, x) ->
  (exists w', wrun64 deref veq has_cb w [XLoc (KSet e ((2^63 - 1) * 10^6)); XLoc (KAdd e (10^6))] = Some (w', [SSet e ((2^63 - 1) * 10^6); SAdd e (10^6)]) /\
     c_ent (w_cl w') !! e = Some (v, (- 2^63)%Z)) /\
  (exists w', wrun deref veq has_cb w [XLoc (KSet e ((2^63 - 1) * 10^6)); XLoc (KAdd e (10^6))] = Some (w', [SSet e ((2^63 - 1) * 10^6); SAdd e (10^6)]) /\
     c_ent (w_cl w') !! e = Some (v, (2^63)%Z)) /\
  (forall now, is_int64 now -> (2^63 <? now)%Z = false) /\ (forall now, (0 <= now)%Z -> (- 2^63 <? now)%Z = true).
Proof.
  intros He.
  assert (E1 : ms ((2^63 - 1) * 10^6) = (2^63 - 1)%Z) by (vm_compute; reflexivity).
  assert (E2 : ms64 ((2^63 - 1) * 10^6) = (2^63 - 1)%Z) by (vm_compute; reflexivity).
  assert (E3 : Z.quot (10^6) 1000000 = 1%Z) by (vm_compute; reflexivity).
  split; [|split; [|split]].
  - cbn [wrun64 wstep64 cl_loc64]. rewrite He. cbn [w_cl c_ent]. rewrite lookup_insert, E2, E3. eexists. split; [reflexivity|].
    cbn. rewrite lookup_insert. done.
  - cbn [wrun wstep cl_loc]. rewrite He. cbn [w_cl c_ent]. rewrite lookup_insert, E1, E3. eexists. split; [reflexivity|].
    cbn [w_cl c_ent]. rewrite lookup_insert. done.
  - unfold is_int64. intros now Hn. lia.
  - intros now Hn. lia.
Qed.
End properties.
Print Assumptions C112_synccache_int64. Print Assumptions C112_synccache_no_AddExpiration. Print Assumptions C112_AddExpiration_overflow_refuted.

(** A mild execution: an entry that lives a millisecond is extended by ten, and is found after five. *)
Definition ex112 : list xcmd :=
  [Do 1 1000000 (SStore 5 50 1000000); Act (XLoc (KAdd 1 10000000)); Do 1 6000000 (SLoad 5); Do 1 20000000 (SLoad 5)].
Definition mildb (x : wact nat nat) : bool :=
  match x with
  | XLoc (KInv _ (SStore _ _ d | SLoadOrStore _ _ d)) | XLoc (KAdd _ d) => (- 2^63 <=? d)%Z && (d <? 2^63)%Z
  | XLoc (KLoc _ (LClock n)) => (0 <=? n)%Z && (n <? 2^63)%Z
  | XLoc (KSet _ at_) => (- 2^62 <=? ms at_)%Z && (ms at_ <=? 2^62)%Z
  | _ => true
  end.
Lemma mildb_ok xs : forallb mildb xs = true -> Forall mild xs.
Proof.
  rewrite forallb_forall, Forall_forall. intros Hx x Hin. apply elem_of_list_In, Hx in Hin.
  destruct x as [[t []|t []| | |]| |]; cbn in *; unfold is_int64; lia || done.
Qed.
Example C112_example : exists xs w, wrun64 (K := nat) (V := nat) (fun p => p) xveq true w_init xs =
    Some (w, default [] (xtrace true ex112)) /\ Forall mild xs /\ adds xs = 1 /\
    SRet 1 (SEnt 1 true) ∈ default [] (xtrace true ex112) /\ SRet 1 SNone ∈ default [] (xtrace true ex112).
Proof.
  exists (xplay true w_init ex112).
  assert (Hx : forallb mildb (xplay true w_init ex112) = true) by (vm_compute; reflexivity). apply mildb_ok in Hx.
  assert (Ha : adds (xplay true w_init ex112) = 1) by (vm_compute; reflexivity).
  pose proof (C112_synccache_int64 (fun p => p) xveq true _ Hx ltac:(rewrite Ha; lia)) as E.
  destruct (xtrace true ex112) as [tr|] eqn:Et; [|vm_compute in Et; done].
  destruct (xtrace_run true ex112 tr Et) as [w Hw]. exists w. rewrite E. split; [exact Hw|]. split; [done|]. split; [done|].
  cbn [default]. vm_compute in Et. injection Et as <-. split; apply elem_of_list_In; cbn; tauto.
Qed.
(** The entry of key 5 is to live for ever and then a millisecond longer; Load does not find it. *)
Definition ex112b : list (wact nat nat) :=
  flat_map (fun x => match x with XLoc (KSet e _) => [XLoc (KSet e ((2^63 - 1) * 10^6)); XLoc (KAdd e (10^6))] | _ => [x] end)
    (xplay true w_init [Do 1 1000000 (SStore 5 50 1000000); Act (XLoc (KSet 1 0)); Do 1 2000000 (SLoad 5)]).
Example C112_example_overflow :
  match wrun64 (K := nat) (V := nat) (fun p => p) xveq true w_init ex112b with
  | Some (_, tr) => drop 4 tr = [SSet 1 ((2^63 - 1) * 10^6); SAdd 1 (10^6); SInv 1 (SLoad 5); SClock 1 2000000; SChk 1 1 2 (- 2^63)%Z; SDel 1 1 50; SRet 1 SNone]
  | None => False
  end.
Proof. vm_compute. reflexivity. Qed.
