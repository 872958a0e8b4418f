(** C175, C176: how rwmap and synccache compare values. *)
From Coq Require Import Floats.SpecFloat Strings.String.
From Verif Require Import Base ReflectEqual ReflectEqualSpec ReflectEqualProofs.
From Verif Require RwMapModel RwMapSpec RwMapProperties SyncCacheModel SyncCacheSpec SyncCacheProperties.

(** ** C175: reflect's Equal is the operator == where == is allowed *)
(** True exactly for equal values. *)
Theorem C175_equal t v u : typed t v -> typed t u -> equal_values t v u = Some true <-> same t v u.
Proof. apply Equal_true. Qed.
(** Values of a type without functions, maps, slices and interfaces are always compared. *)
Theorem C175_no_panic t v u : comparable true t -> typed t v -> typed t u -> exists b, equal_values t v u = Some b.
Proof. apply Equal_strict. Qed.
(** A panic comes from a part of the value, possibly inside an interface, whose type has no ==. *)
Theorem C175_panic t v u : typed t v -> typed t u -> equal_values t v u = None -> exists d x, part t v d x /\ ~ comparable false d.
Proof. intros Hv Hu. by apply (Equal_panics v t u t). Qed.
(** Functions, maps and slices: always, even if both are nil. *)
Theorem C175_func_map_slice t v u : typed t v -> typed t u -> (match t with TFunc _ | TMap _ | TSlice _ => True | _ => False end) ->
  equal_values t v u = None.
Proof. apply Equal_opaque. Qed.
(** Values of a type without == never come out equal. *)
Theorem C175_incomparable t v u : typed t v -> typed t u -> ~ comparable false t -> equal_values t v u <> Some true.
Proof. intros Hv Hu Hc H. apply Hc. exact (same_comparable t v u (proj1 (C175_equal t v u Hv Hu) H)). Qed.
Print Assumptions C175_equal.
Print Assumptions C175_no_panic.
Print Assumptions C175_panic.
Print Assumptions C175_func_map_slice.
Print Assumptions C175_incomparable.

(** ** C176: what that means for the maps; V is the type t *)
Definition of_type (t : ty) : Type := { v : gval | typed t v }.
Definition reflect_eq {t} (v u : of_type t) : option bool := equal_values t (proj1_sig v) (proj1_sig u).

Section rwmap.
  Import RwMapModel RwMapSpec RwMapProperties.
  Context {K : Type} `{Countable K} (t : ty) (deref : nat -> of_type t) (zero : of_type t).
  (** No call of a map with values of a strictly comparable type panics. *)
  Theorem C176_rwmap_no_panic acts (cf : config K (of_type t)) tr g : Inhabited K -> comparable true t ->
    run deref zero reflect_eq new_config acts = Some (cf, tr) -> ERet g RPanic ∉ tr.
  Proof.
    intros HK Hc Hr Hin. destruct (C72_no_panic deref zero reflect_eq acts cf tr g HK Hr Hin) as (k&[old Ho]&[v Hv]&_&Hn).
    destruct (C175_no_panic t v old Hc Hv Ho) as [b Hb]. unfold reflect_eq in Hn. cbn [proj1_sig] in Hn. by rewrite Hb in Hn.
  Qed.
  (** CompareAndSwap and CompareAndDelete of the plain map of C67 and C68: they succeed exactly if the
      value of the key == old, for a strictly comparable type; and panic exactly if the key is there, for
      functions, maps and slices. *)
  Theorem C176_rwmap_compares (m : gmap K (of_type t)) k old p b : comparable true t ->
    (seq_res deref reflect_eq m (CCas k old p) = RBool b <-> (b = true <-> exists v, m !! k = Some v /\ same t (proj1_sig v) (proj1_sig old))) /\
    (seq_res deref reflect_eq m (CCad k old) = RBool b <-> (b = true <-> exists v, m !! k = Some v /\ same t (proj1_sig v) (proj1_sig old))).
  Proof.
    intros Hc. enough ((match m !! k with Some v => match reflect_eq v old with Some b => RBool b | None => RPanic end | None => RBool false end) = RBool (V := of_type t) b <->
       (b = true <-> exists v, m !! k = Some v /\ same t (proj1_sig v) (proj1_sig old))) as Hx by (split; exact Hx).
    destruct (m !! k) as [[v Hv]|].
    - destruct old as [old Ho]. destruct (C175_no_panic t v old Hc Hv Ho) as [b' Hb]. unfold reflect_eq. cbn [proj1_sig]. rewrite Hb.
      pose proof (C175_equal t v old Hv Ho) as He. rewrite Hb in He. split.
      + intros [= <-]. split; [intros ->; exists (exist _ v Hv); split; [done|by apply He]|].
        intros (v'&[= <-]&Hs). apply He in Hs. by injection Hs.
      + intros Hi. f_equal. destruct b, b'; try done.
        * destruct (proj1 Hi eq_refl) as (v'&[= <-]&Hs). by apply He in Hs.
        * apply proj2 in Hi. symmetry. apply Hi. exists (exist _ v Hv). split; [done|]. by apply He.
    - split; [intros [= <-]; split; [done|by intros (?&?&_)]|]. intros Hi. destruct b; [|done]. destruct (proj1 Hi eq_refl) as (?&?&_). done.
  Qed.
  Theorem C176_rwmap_panics (m : gmap K (of_type t)) k old p : (match t with TFunc _ | TMap _ | TSlice _ => True | _ => False end) -> is_Some (m !! k) ->
    seq_res deref reflect_eq m (CCas k old p) = RPanic /\ seq_res deref reflect_eq m (CCad k old) = RPanic.
  Proof.
    intros Ht [[v Hv] Hk]. destruct old as [old Ho]. pose proof (C175_func_map_slice t v old Hv Ho Ht) as Hn.
    unfold seq_res. rewrite Hk. unfold reflect_eq. cbn [proj1_sig]. by rewrite Hn.
  Qed.
End rwmap.
Print Assumptions C176_rwmap_no_panic.
Print Assumptions C176_rwmap_compares.
Print Assumptions C176_rwmap_panics.
Section synccache.
  Import SyncCacheModel SyncCacheSpec SyncCacheProperties.
  Context {K : Type} `{Countable K} (t : ty) (deref : nat -> nat) (has_cb : bool).
  Theorem C176_synccache_no_panic xs w tr g : Inhabited K -> comparable true t ->
    wrun (K := K) (V := of_type t) deref reflect_eq has_cb w_init xs = Some (w, tr) -> SRet g SPanic ∉ tr.
  Proof.
    intros HK Hc Hr Hin. destruct (C84_calls deref reflect_eq has_cb xs w tr HK Hr) as (h&(m&_&Htr&_)&Hev).
    subst tr. unfold trace in Hin. apply elem_of_list_bind in Hin as (x&Hx&Hh). apply elem_of_list_split in Hh as (g1&g2&Hh).
    destruct (Hev _ _ _ _ _ Hh Hx) as (c&h1&h2&_&Ha). destruct c as [| | | | | |k [v Hv]| | |]; try done.
    destruct Ha as (e&[v' Hv']&_&_&Hn). destruct (C175_no_panic t v v' Hc Hv Hv') as [b Hb]. unfold reflect_eq in Hn. cbn [proj1_sig] in Hn. by rewrite Hb in Hn.
  Qed.
  (** When it returns true, the value of the entry it removed == its argument. *)
  Theorem C176_synccache_compares xs w tr : Inhabited K -> 
    wrun (K := K) (V := of_type t) deref reflect_eq has_cb w_init xs = Some (w, tr) ->
    exists h, explains deref reflect_eq has_cb h w tr /\
      every_call h (fun h1 h2 g c r => forall k v, c = SCvad k v -> r = SBool true ->
        exists e v', removed deref reflect_eq has_cb h1 h2 g k e /\ has_value (h1 ++ h2) e v' /\ same t (proj1_sig v) (proj1_sig v')).
  Proof.
    intros HK Hr. destruct (C84_calls deref reflect_eq has_cb xs w tr HK Hr) as (h&He&Hev). exists h. split; [done|].
    intros g1 x g2 g r Hh Hx. destruct (Hev _ _ _ _ _ Hh Hx) as (c&h1&h2&Hc&Ha). exists c, h1, h2. split; [done|].
    intros k v -> ->. destruct Ha as (e&v'&Hrem&_&Hval&Heq). exists e, v'. split; [done|]. split; [done|].
    apply C175_equal; [apply (proj2_sig v)|apply (proj2_sig v')|done].
  Qed.
End synccache.
Print Assumptions C176_synccache_no_panic.
Print Assumptions C176_synccache_compares.

(** ** Examples *)
(** struct { n int; f [2]float64; s string } *)
Local Definition ex_t : ty := TStruct 0 [TInt 0; TArray 0 2 (TFloat 0); TString 0].
Local Definition ex_v (f : spec_float) : gval := VList [VNum 7; VList [VFloat (S754_zero false); VFloat f]; VString "a"].
(** struct { n int; g func() } and interface{} *)
Local Definition ex_bad : ty := TStruct 1 [TInt 0; TFunc 0].
Local Definition ex_any : ty := TInterface 0.
Example C175_example :
  comparable true ex_t /\ typed ex_t (ex_v S754_nan) /\
  equal_values ex_t (ex_v (S754_zero true)) (ex_v (S754_zero false)) = Some true /\
  equal_values ex_t (ex_v S754_nan) (ex_v S754_nan) = Some false /\
  typed ex_bad (VList [VNum 1; VOpaque]) /\ ~ comparable false ex_bad /\
  equal_values ex_bad (VList [VNum 1; VOpaque]) (VList [VNum 2; VOpaque]) = Some false /\
  equal_values ex_bad (VList [VNum 1; VOpaque]) (VList [VNum 1; VOpaque]) = None /\
  typed ex_any (VIface (Some (TSlice 0, VOpaque))) /\ comparable false ex_any /\ ~ comparable true ex_any /\
  equal_values ex_any (VIface (Some (TSlice 0, VOpaque))) (VIface (Some (TSlice 0, VOpaque))) = None /\
  equal_values ex_any (VIface (Some (TSlice 0, VOpaque))) (VIface (Some (TMap 0, VOpaque))) = Some false /\
  equal_values ex_any (VIface (Some (TInt 0, VNum 1))) (VIface (Some (TInt 1, VNum 1))) = Some false /\
  equal_values ex_any (VIface None) (VIface None) = Some true /\
  equal_values ex_any (VIface (Some (TPointer 0, VRef None))) (VIface None) = Some false.
Proof.
  split. { apply co_struct. repeat constructor. }
  split. { apply ty_struct. repeat constructor. }
  split; [reflexivity|]. split; [reflexivity|].
  split. { apply ty_struct. repeat constructor. }
  split. { intros H. inversion H as [| | | | | | | | | | |i fs Hf]; subst. rewrite !Forall_cons in Hf. destruct Hf as (_&Hf&_). inversion Hf. }
  split; [reflexivity|]. split; [reflexivity|].
  split. { apply ty_dyn; [intros []|constructor]. }
  split; [by constructor|]. split. { intros H. by inversion H. }
  repeat split; reflexivity.
Qed.
Local Definition ex_int (n : nat) : of_type (TInt 0) := exist _ (VNum (Z.of_nat n)) (ty_int 0 (Z.of_nat n)).
Example C176_example :
  comparable true (TInt 0) /\
  (fun x => match last (snd x) with Some (RwMapModel.ERet _ (RwMapModel.RBool b)) => b | _ => false end) <$>
    RwMapModel.run (K := nat) ex_int (ex_int 0) reflect_eq RwMapModel.new_config
      (RwMapModel.AInv 1 (RwMapModel.CStore 5 50) :: replicate 10 (RwMapModel.AStep 1 RwMapModel.LTick) ++
       RwMapModel.AInv 2 (RwMapModel.CCas 5 (ex_int 50) 51) :: replicate 9 (RwMapModel.AStep 2 RwMapModel.LTick)) = Some true.
Proof. split; [constructor|]. vm_compute. reflexivity. Qed.
