(** Property C111: refreshcache with 64-bit integers *)
From Coq Require Import ZifyBool.
From Verif Require Import Base Int64 RefreshCacheModel RefreshCacheSpec RefreshCacheProofs RefreshCacheProperties RefreshCache64Spec RefreshCache64.

(** As long as all readings of the clock, and 1970, lie within 292 years (2^63 nanoseconds), no
    subtraction overflows: the executions with 64-bit integers are those of the model, so C59-C66, C83,
    C89, C92, C96 and C101 hold of them, whatever maxAge and errAge are. *)
Theorem C111_refreshcache_int64 (T E F : Type) (zero : T) maxAge errAge lo hi (f0 : option F) (acts : list (action T E F)) :
  (lo <= 0 <= hi)%Z -> (hi - lo < 2^63)%Z -> clock_within lo hi acts ->
  run64 zero maxAge errAge (new_config zero f0) acts = run zero maxAge errAge (new_config zero f0) acts.
Proof. intros H0 Hd Hc. apply (run_64 zero maxAge errAge lo hi H0 Hd); [by apply times_new|done]. Qed.
Print Assumptions C111_refreshcache_int64.
(** In particular for every clock from 1970 on that fits UnixNano. *)
Corollary C111_refreshcache_since_1970 (T E F : Type) (zero : T) maxAge errAge (f0 : option F) (acts : list (action T E F)) :
  clock_within 0 (2^63 - 1) acts ->
  run64 zero maxAge errAge (new_config zero f0) acts = run zero maxAge errAge (new_config zero f0) acts.
Proof. apply C111_refreshcache_int64; lia. Qed.
Print Assumptions C111_refreshcache_since_1970.

(** A value from now is stale two seconds later if it may be one second old. *)
Example C111_example : exists cf tr,
  run64 (T := Z) (E := nat) (F := nat) 0%Z (10^9)%Z 0%Z cnew (get_refresh 0 now now now (OOk 7%Z) ++
    get_refresh 1 (now + 2 * 10^9) (now + 2 * 10^9) (now + 2 * 10^9) (OOk 8%Z)) = Some (cf, tr) /\
  clock_within 0 (2^63 - 1) (get_refresh 0 now now now (OOk 7%Z) ++
    get_refresh 1 (now + 2 * 10^9) (now + 2 * 10^9) (now + 2 * 10^9) (OOk 8%Z)) /\ s_data (c_sh cf) = 8%Z.
Proof.
  destruct (run64 _ _ _ _ _) as [[cf tr]|] eqn:E; [|vm_compute in E; done]. exists cf, tr. split; [done|]. split.
  - apply clock_within_bool. vm_compute. reflexivity.
  - vm_compute in E. by injection E as <- _.
Qed.
(** Beyond that the machines differ: a value recorded 292 years before the reading counts as fresh. *)
Example C111_example_beyond :
  let old := (- 2^62)%Z in let new := (2^62)%Z in
  let acts := refresh 0 old (OOk 7%Z) ++ get_cached 1 new in
  last (default [] (snd <$> run64 (T := Z) (E := nat) (F := nat) 0%Z (10^9)%Z 0%Z cnew acts)) = Some (EReturn 1 (RGet 7%Z None)) /\
  last (trace (10^9)%Z 0%Z acts) = Some (ELock 1).
Proof. cbn zeta. split; vm_compute; reflexivity. Qed.
