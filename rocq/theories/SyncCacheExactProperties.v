(** synccache: exactly what each call does, when calls are made one after the other (C104). *)
From Verif Require Import Base RwMapModel RwMapSpec SyncCacheModel SyncCacheSpec SyncCacheHist SyncCacheLink SyncCacheProperties
  SyncCacheExactSpec SyncCacheExact SyncCacheExactCalls.

(** Whatever calls are made one after the other, with whatever clock and callbacks, by whatever
    goroutines: the observations are those of [effect], call by call, starting from the empty cache;
    and the map and the entries at the end are as computed there. *)
Theorem C104_sequential :
  forall (K : Type) (EqK : EqDecision K) (CountK : Countable K) (V : Type) (deref : nat -> nat)
    (veq : V -> V -> option bool) (has_cb : bool) (w : world K V) xs tr,
  Inhabited K -> wrun deref veq has_cb w_init xs = Some (w, tr) -> one_by_one false tr -> c_fr (w_cl w) = ∅ ->
  behaves veq has_cb empty_cache tr (mk_cache (contents deref (c_sh (w_map w))) (c_ent (w_cl w))).
Proof.
  intros K EqK CountK V deref veq has_cb w xs tr Hinh Hw Ho Hf.
  destruct (run_explained _ _ _ _ _ _ Hinh Hw) as (h & m & Hr & <- & Hcl & Hmap).
  rewrite <- Hmap, <- Hcl. change (mk_cache _ _) with (cache_of m).
  apply (idle_behaves deref veq has_cb h m_init m).
  - split; [apply linked_init|]. done.
  - intros k e He. cbn in He. by rewrite lookup_empty in He.
  - done.
  - done.
  - by rewrite Hcl.
Qed.
Print Assumptions C104_sequential.

(** *** An example *)
(** Stored for 1 ms at 0, seen at 1, gone at 2 with deletedCallback; LoadOrStore replaces an expired
    entry; Range, CompareValueAndDelete, Clear. *)
Definition ex104 : list xcmd :=
  [Do 1 0 (SStore 5 50 1000000); Do 2 1000000 (SLoad 5); Do 2 2000000 (SLoad 5);
   Do 1 2000000 (SStore 6 60 1000000); Do 3 9000000 (SLoadOrStore 6 61 1000000); Do 3 9000000 (SStore 7 70 0);
   Do 1 9000000 SRange; Do 1 9000000 (SCvad 7 70); Do 1 9000000 SClear].
Definition ex104_tr : list (sev nat nat) :=
  [SInv 1 (SStore 5 50 1000000); SClock 1 0; SNew 1 1 50 1; SRet 1 SUnit;
   SInv 2 (SLoad 5); SClock 2 1000000; SChk 2 1 1 1; SRet 2 (SEnt 1 true);
   SInv 2 (SLoad 5); SClock 2 2000000; SChk 2 1 2 1; SDel 2 1 50; SRet 2 SNone;
   SInv 1 (SStore 6 60 1000000); SClock 1 2000000; SNew 1 2 60 3; SRet 1 SUnit;
   SInv 3 (SLoadOrStore 6 61 1000000); SClock 3 9000000; SNew 3 3 61 10; SClock 3 9000000; SChk 3 2 9 3;
   SDel 3 2 60; SClock 3 9000000; SNew 3 4 61 10; SRet 3 (SEnt 4 false);
   SInv 3 (SStore 7 70 0); SClock 3 9000000; SNew 3 5 70 9; SRet 3 SUnit;
   SInv 1 SRange; SClock 1 9000000; SChk 1 4 9 10; SUse 1 6 4 true; SClock 1 9000000; SChk 1 5 9 9;
   SUse 1 7 5 true; SRet 1 SUnit;
   SInv 1 (SCvad 7 70); SClock 1 9000000; SChk 1 5 9 9; SDel 1 5 70; SRet 1 (SBool true);
   SInv 1 SClear; SDel 1 4 61; SRet 1 SUnit].
Example C104_ex : exists xs w,
  wrun (K := nat) (V := nat) (fun p => p) xveq true w_init xs = Some (w, ex104_tr) /\
  one_by_one false ex104_tr /\ c_fr (w_cl w) = ∅.
Proof.
  assert (Hx : (fun x => (bool_decide (c_fr (w_cl x.1) = ∅), x.2)) <$> xrun true w_init (xplay true w_init ex104) = Some (true, ex104_tr))
    by (vm_compute; reflexivity).
  exists (xplay true w_init ex104). unfold xrun in Hx. destruct (wrun _ _ _ _ _) as [[w tr]|] eqn:E; [|done].
  cbn [fmap option_fmap option_map fst snd] in Hx. injection Hx as Hf Ht. subst tr. exists w. split; [done|]. split.
  - clear. cbn. tauto.
  - by apply bool_decide_eq_true in Hf.
Qed.
(** The description says something: an expired entry that is handed out, one that is dropped without
    deletedCallback, and a fresh entry that is not found do not fit it. *)
Example C104_not : forall (s : cache nat nat) seg r,
  x_map s !! 5 = Some 1 -> x_ent s !! 1 = Some (50, 1%Z) ->
  (seg = [SClock 2 2000000; SChk 2 1 2 1] /\ r = SEnt 1 true \/
   seg = [SClock 2 2000000; SChk 2 1 2 1] /\ r = SNone \/
   seg = [SClock 2 1000000; SChk 2 1 1 1; SDel 2 1 50] /\ r = SNone) ->
  ~ exists s', effect xveq true 2 (SLoad 5) s seg r s'.
Proof.
  intros s seg r Hk He Hs (s' & Hef). cbn in Hef. rewrite Hk in Hef. destruct Hef as (n & v & x & He' & Hef).
  rewrite He in He'. injection He' as <- <-.
  destruct Hs as [[-> ->]|[[-> ->]|[-> ->]]]; case_match eqn:E; destruct Hef as (Hs & Hr & _); try done; injection Hs as <-; done.
Qed.
