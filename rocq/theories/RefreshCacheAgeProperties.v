(** C167, C168: how old the values returned by Get and Refresh can be. *)
From Coq Require Import ZifyBool.
From Verif Require Import Base RefreshCacheModel RefreshCacheSpec RefreshCacheProofs
  RefreshCacheProperties RefreshCacheAgeSpec RefreshCacheAge.

Section properties.
Context {T E F : Type} (zero : T) (maxAge errAge : Z).
Local Notation event := (event T E F).
Local Notation config := (config T E F).

(** C167.  Whatever the other goroutines do, and however often refreshes fail, panic or are cleared:
    a value returned without an error is the one the cache held at some moment [x] that comes after
    every success recorded before the call, and either the refresh function returned it inside this
    very call, or a success was recorded by then that was less than maxAge old at a clock reading of
    the call (with a negative maxAge: a success at all). *)
Theorem C167_age (f0 : option F) acts (cf : config) (tr1 : list event) t c tr2 v tr3 :
  run zero maxAge errAge (new_config zero f0) acts =
    Some (cf, tr1 ++ EInv t c :: tr2 ++ EReturn t (RGet v None) :: tr3) ->
  (forall r, EReturn t r ∉ tr2) -> readings_of t (fun n => maxAge <= n /\ errAge <= n)%Z tr2 ->
  exists x y, tr1 ++ EInv t c :: tr2 = x ++ y /\ v = recorded zero x /\ covers x tr1 /\
    (own_refresh t v (S (length tr1)) x \/ fresh_by maxAge t tr2 x).
Proof. apply age. Qed.

(** C168.  Values never go back: if a call returned [v] before another was made that returned [v'],
    by the same goroutine or not, then the moment at which [v'] was the value of the cache is not
    before the one at which [v] was. *)
Theorem C168_order (f0 : option F) acts (cf : config) (tr1 : list event) t c tr2 v tr3 u d tr4 v' tr5 :
  run zero maxAge errAge (new_config zero f0) acts =
    Some (cf, tr1 ++ EInv t c :: tr2 ++ EReturn t (RGet v None) ::
              tr3 ++ EInv u d :: tr4 ++ EReturn u (RGet v' None) :: tr5) ->
  (forall r, EReturn t r ∉ tr2) -> readings_of t (fun n => maxAge <= n /\ errAge <= n)%Z tr2 ->
  (forall r, EReturn u r ∉ tr4) -> readings_of u (fun n => maxAge <= n /\ errAge <= n)%Z tr4 ->
  exists x y z,
    tr1 ++ EInv t c :: tr2 ++ EReturn t (RGet v None) :: tr3 ++ EInv u d :: tr4 = x ++ y ++ z /\
    v = recorded zero x /\ v' = recorded zero (x ++ y).
Proof. apply order. Qed.

End properties.

Print Assumptions C167_age.
Print Assumptions C168_order.

(** ** Examples *)

(** Goroutine 1 starts a Get, finds the cache empty and is held up before it locks; goroutine 0 gets 7
    meanwhile; goroutine 1 then finds 7 fresh. Goroutine 2 refreshes to 9, goroutine 0 gets 9. *)
Local Definition ex_age : list (action Z nat nat) :=
  take 4 (get_refresh 1 now now now (OOk 8%Z)) ++
  get_refresh 0 now now now (OOk 7%Z) ++
  (AStep 1 <$> [LTick; LTick; LNow (now + 3)%Z; LTick; LTick; LTick; LTick]) ++
  refresh 2 (now + 5)%Z (OOk 9%Z) ++ get_cached 0 (now + 6)%Z.
Local Notation tr := (trace (10^9)%Z 0%Z ex_age).

Local Definition first_get : list (event Z nat nat) :=
  [EInv 0 (CGet (Some 1)); ENow 0 now; ELock 0; ENow 0 now; EStart 0 1 0%Z; EFinish 0 (OOk 7%Z); ENow 0 now;
   ESucc 0 now; EUnlock 0; EReturn 0 (RGet 7%Z None)].
Local Definition call1 : list (event Z nat nat) := [ENow 1 now] ++ first_get ++ [ELock 1; ENow 1 (now + 3)%Z; EUnlock 1].
Local Definition refresh2 : list (event Z nat nat) :=
  [EInv 2 (CRefresh (Some 1)); ELock 2; EStart 2 1 7%Z; EFinish 2 (OOk 9%Z); ENow 2 (now + 5)%Z; ESucc 2 (now + 5)%Z;
   EUnlock 2; EReturn 2 (RGet 9%Z None)].

Lemma ex_trace : tr = EInv 1 (CGet (Some 1)) :: call1 ++ EReturn 1 (RGet 7%Z None) :: refresh2 ++
                      EInv 0 (CGet (Some 1)) :: [ENow 0 (now + 6)%Z] ++ EReturn 0 (RGet 9%Z None) :: [].
Proof. vm_compute. reflexivity. Qed.
Lemma ex_runs : exists cf, crun (10^9)%Z 0%Z cnew ex_age = Some (cf, tr).
Proof.
  assert (bool_decide (is_Some (crun (10^9)%Z 0%Z cnew ex_age)) = true) as H by (vm_compute; reflexivity).
  apply bool_decide_eq_true in H as [[cf l] H]. exists cf. unfold trace. by rewrite H.
Qed.
Lemma ex_ok t (l : list (event Z nat nat)) :
  forallb (fun e => match e with
                    | EReturn u _ => negb (u =? t)
                    | ENow u n => negb (u =? t) || ((10^9 <=? n) && (0 <=? n))%Z
                    | _ => true
                    end) l = true ->
  (forall r, EReturn t r ∉ l) /\ readings_of t (fun n => 10^9 <= n /\ 0 <= n)%Z l.
Proof.
  rewrite forallb_forall. intros H. split.
  - intros r Hr. apply elem_of_list_In in Hr. specialize (H _ Hr). cbn in H. by rewrite Nat.eqb_refl in H.
  - intros n Hn. apply elem_of_list_In in Hn. specialize (H _ Hn). cbn [negb orb] in H. rewrite Nat.eqb_refl in H.
    cbn [negb orb] in H. lia.
Qed.

(** The value that goroutine 1 returns was fetched by goroutine 0 during the call, and is fresh. *)
Example C167_example :
  (exists cf, crun (10^9)%Z 0%Z cnew ex_age =
     Some (cf, [] ++ EInv 1 (CGet (Some 1)) :: call1 ++ EReturn 1 (RGet 7%Z None) :: refresh2 ++
               EInv 0 (CGet (Some 1)) :: [ENow 0 (now + 6)%Z] ++ EReturn 0 (RGet 9%Z None) :: [])) /\
  (forall r, EReturn 1 r ∉ call1) /\ readings_of 1 (fun n => 10^9 <= n /\ 0 <= n)%Z call1 /\
  recorded 0%Z (EInv 1 (CGet (Some 1)) :: call1) = 7%Z /\ recorded 0%Z (take 7 (EInv 1 (CGet (Some 1)) :: call1)) = 0%Z /\
  fresh_by (10^9)%Z 1 call1 (EInv 1 (CGet (Some 1)) :: call1) /\
  ~ own_refresh 1 7%Z 1 (EInv 1 (CGet (Some 1)) :: call1) /\
  own_refresh 0 7%Z 3 (take 8 (EInv 1 (CGet (Some 1)) :: call1)).
Proof.
  split. { destruct ex_runs as [cf H]. exists cf. rewrite ex_trace in H. exact H. }
  destruct (ex_ok 1 call1) as [H1 H2]; [vm_compute; reflexivity|]. split; [exact H1|]. split; [exact H2|].
  split; [vm_compute; reflexivity|]. split; [vm_compute; reflexivity|]. split.
  { right. exists (now + 3)%Z, 0, now. split; [|split; [vm_compute; reflexivity|]].
    - unfold call1. apply elem_of_app. right. apply elem_of_app. right. right. left.
    - right. unfold call1. apply elem_of_app. right. apply elem_of_app. left. do 7 right. left. }
  split.
  - intros (a&Ha&_). apply (f_equal last) in Ha. rewrite last_snoc in Ha. vm_compute in Ha. discriminate Ha.
  - exists (take 7 (EInv 1 (CGet (Some 1)) :: call1)). split; [vm_compute; reflexivity|]. vm_compute. lia.
Qed.

(** Goroutine 1 returned 7; the later call of goroutine 0 returns 9, which came later. *)
Example C168_example :
  (exists cf, crun (10^9)%Z 0%Z cnew ex_age =
     Some (cf, [] ++ EInv 1 (CGet (Some 1)) :: call1 ++ EReturn 1 (RGet 7%Z None) :: refresh2 ++
               EInv 0 (CGet (Some 1)) :: [ENow 0 (now + 6)%Z] ++ EReturn 0 (RGet 9%Z None) :: [])) /\
  (forall r, EReturn 1 r ∉ call1) /\ readings_of 1 (fun n => 10^9 <= n /\ 0 <= n)%Z call1 /\
  (forall r, EReturn 0 r ∉ ([ENow 0 (now + 6)%Z] : list (event Z nat nat))) /\
  readings_of 0 (fun n => 10^9 <= n /\ 0 <= n)%Z ([ENow 0 (now + 6)%Z] : list (event Z nat nat)) /\
  exists x y z, EInv 1 (CGet (Some 1)) :: call1 ++ EReturn 1 (RGet 7%Z None) :: refresh2 ++
      EInv 0 (CGet (Some 1)) :: [ENow 0 (now + 6)%Z] = x ++ y ++ z /\
    7%Z = recorded 0%Z x /\ 9%Z = recorded 0%Z (x ++ y).
Proof.
  assert (exists cf, crun (10^9)%Z 0%Z cnew ex_age =
     Some (cf, [] ++ EInv 1 (CGet (Some 1)) :: call1 ++ EReturn 1 (RGet 7%Z None) :: refresh2 ++
               EInv 0 (CGet (Some 1)) :: [ENow 0 (now + 6)%Z] ++ EReturn 0 (RGet 9%Z None) :: [])) as Hr.
  { destruct ex_runs as [cf H]. exists cf. rewrite ex_trace in H. exact H. }
  destruct (ex_ok 1 call1) as [H1 H2]; [vm_compute; reflexivity|].
  destruct (ex_ok 0 [ENow 0 (now + 6)%Z]) as [H3 H4]; [vm_compute; reflexivity|].
  split; [exact Hr|]. do 4 (split; [assumption|]). destruct Hr as [cf Hr].
  exact (C168_order 0%Z (10^9)%Z 0%Z (Some 0) _ _ [] _ _ _ _ _ _ _ _ _ _ Hr H1 H2 H3 H4).
Qed.
