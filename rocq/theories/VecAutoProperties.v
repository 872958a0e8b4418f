(** vec: the comparators a vector picks for itself (C105). *)
From Coq Require Import ZifyBool Floats.SpecFloat Strings.String.
From Verif Require Import Base VecModel VecSpec VecExample VecProperties VecAuto VecAutoSpec.

(** ** Floats: the order of the keys *)
Definition fkey (f : spec_float) : option (Z * Z * Z) :=
  match f with
  | S754_zero _ => Some (0, 0, 0)
  | S754_infinity s => Some (if s then -2 else 2, 0, 0)
  | S754_nan => None
  | S754_finite s m e => Some (if s then (-1, - e, Z.neg m) else (1, e, Z.pos m))
  end%Z.
Definition lexlt (a b : Z * Z * Z) : bool :=
  let '(x1, y1, z1) := a in let '(x2, y2, z2) := b in
  Z.ltb x1 x2 || (Z.eqb x1 x2 && (Z.ltb y1 y2 || (Z.eqb y1 y2 && Z.ltb z1 z2))).
Lemma SFltb_key a b ka kb : fkey a = Some ka -> fkey b = Some kb -> SFltb a b = lexlt ka kb.
Proof.
  unfold SFltb. destruct a as [[]|[]| |[] ma ea], b as [[]|[]| |[] mb eb]; cbn [fkey]; intros [= <-] [= <-]; try done.
  - cbn [SFcompare]. destruct (Z.compare_spec ea eb) as [->|?|?]; cbn [lexlt]; [|lia|lia].
    change (Pos.compare_cont Eq ma mb) with (Pos.compare ma mb). destruct (Pos.compare_spec ma mb); cbn; lia.
  - cbn [SFcompare]. destruct (Z.compare_spec ea eb) as [->|?|?]; cbn [lexlt]; [|lia|lia].
    change (Pos.compare_cont Eq ma mb) with (Pos.compare ma mb). destruct (Pos.compare_spec ma mb); cbn; lia.
Qed.
Lemma SFeqb_ltb a b : a <> S754_nan -> b <> S754_nan -> SFeqb a b = negb (SFltb a b) && negb (SFltb b a).
Proof.
  intros Ha Hb. unfold SFltb, SFeqb. destruct a as [[]|[]| |[] ma ea], b as [[]|[]| |[] mb eb]; try done; cbn [SFcompare];
    change (Pos.compare_cont Eq ma mb) with (Pos.compare ma mb); change (Pos.compare_cont Eq mb ma) with (Pos.compare mb ma);
    rewrite (Z.compare_antisym eb ea), (Pos.compare_antisym mb ma); destruct (Z.compare eb ea), (Pos.compare mb ma); done.
Qed.
Lemma lexlt_swo : swo lexlt.
Proof.
  split_and!.
  - intros [[x1 y1] z1]. cbn. lia.
  - intros [[x1 y1] z1] [[x2 y2] z2] [[x3 y3] z3]. cbn. lia.
  - intros [[x1 y1] z1] [[x2 y2] z2] [[x3 y3] z3]. cbn. lia.
Qed.
Lemma fkey_some f : f <> S754_nan -> exists k, fkey f = Some k.
Proof. destruct f; [eexists; reflexivity..|done|eexists; reflexivity]. Qed.

(** Compact with a comparator that says yes to everything. *)
Lemma all_equal_Compact {T} (zero : T) growth auto srt srt_stable (Hsrt : forall f l, srt f l ≡ₚ l) (Hsrt2 : forall f l, srt_stable f l ≡ₚ l)
    (st : state T) v : v_reached zero growth auto srt srt_stable st -> v < w_vn (fst st) -> cmp_equal auto (S v) (fst st) v = Some (fun _ _ => true) ->
  exists w', Compact zero auto v (fst st) = Ok (tt, w') /\ vseq w' v = take 1 (vseq (fst st) v).
Proof.
  intros Hr Hv E0. destruct (C44_Compact zero growth auto srt srt_stable Hsrt Hsrt2 st v (fun _ _ => true) Hr Hv E0) as (w' & E & Q & _).
  exists w'. split; [done|]. rewrite Q. destruct (vseq (fst st) v) as [|x l]; [done|]. cbn. f_equal. clear.
  generalize (x :: l). intros l0. revert l. induction l0 as [|y l0 IH]; intros [|z l]; try done. cbn. apply IH.
Qed.

Section claims.
  Context (Other : Type) (name : kind -> string) (natural : string -> string -> bool).
  Notation val := (val Other).
  Notation detect_less := (detect_less Other name natural).
  Notation detect_equal := (detect_equal Other name).
  Notation auto_less := (auto_less Other name natural).
  Notation auto_equal := (auto_equal Other).

  (** The parameters of VecModel, with which all other theorems about vec can be used, are what
      reflection picks. *)
  Theorem C105_detected k (a b : val k) :
    call_cmp (auto_less k) a b = (f <-! detect_less k ;; f a b) /\
    call_cmp (auto_equal k) a b = (f <-! detect_equal k ;; f a b).
  Proof.
    destruct k as [| | | |[]|]; try done. cbn. split; [done|]. by rewrite String.eqb_refl.
  Qed.

  (** Integers of either kind are compared by value. *)
  Theorem C105_integers k : k = KInt \/ k = KUint ->
    exists lt eq, auto_less k = Some lt /\ auto_equal k = Some eq /\ swo lt /\ matches lt eq /\
      forall a b, a = b <-> eq a b = true.
  Proof.
    intros [->| ->]; exists Z.ltb, Z.eqb; (split; [done|]); (split; [done|]).
    all: split; [split_and!; intros; lia|]. all: split; intros a b; lia.
  Qed.
  (** Floats other than NaN as well; the equality is that of the order (and of IEEE-754: 0 = -0). *)
  Theorem C105_floats : auto_less KFloat = Some SFltb /\ auto_equal KFloat = Some SFeqb /\
    swo_on (fun f => f <> S754_nan) SFltb /\
    forall a b, a <> S754_nan -> b <> S754_nan -> SFeqb a b = negb (SFltb a b) && negb (SFltb b a).
  Proof.
    split; [done|]. split; [done|]. split; [|apply SFeqb_ltb]. destruct lexlt_swo as (S1 & S2 & S3). split_and!.
    - intros a [ka Ka]%fkey_some. rewrite (SFltb_key _ _ _ _ Ka Ka). apply S1.
    - intros a b c [ka Ka]%fkey_some [kb Kb]%fkey_some [kc Kc]%fkey_some.
      rewrite (SFltb_key _ _ _ _ Ka Kb), (SFltb_key _ _ _ _ Kb Kc), (SFltb_key _ _ _ _ Ka Kc). apply S2.
    - intros a b c [ka Ka]%fkey_some [kb Kb]%fkey_some [kc Kc]%fkey_some.
      rewrite (SFltb_key _ _ _ _ Ka Kb), (SFltb_key _ _ _ _ Kb Kc), (SFltb_key _ _ _ _ Ka Kc),
        (SFltb_key _ _ _ _ Kb Ka), (SFltb_key _ _ _ _ Kc Kb), (SFltb_key _ _ _ _ Kc Ka). apply S3.
  Qed.
  (** NaN is incomparable to everything, so that with NaN there is no weak order, and NaN is not equal
      to itself although neither is less. *)
  Theorem C105_NaN_refuted : ~ swo SFltb /\ ~ matches SFltb SFeqb.
  Proof.
    split.
    - intros (_ & _ & H). specialize (H (S754_zero false) S754_nan (S754_infinity false) eq_refl eq_refl eq_refl eq_refl). by destruct H.
    - intros H. by specialize (H S754_nan S754_nan).
  Qed.
  (** Strings: equal means identical; the order is that of the natural package. *)
  Theorem C105_strings : auto_less KString = Some natural /\
    exists eq, auto_equal KString = Some eq /\ forall a b, eq a b = true <-> a = b.
  Proof. split; [done|]. exists String.eqb. split; [done|]. intros a b. apply String.eqb_eq. Qed.
  (** Types that are not supported panic when the comparator is picked. *)
  Theorem C105_unsupported k : k = KOther \/ k = KPtr KOther \/ (exists e, k = KPtr (KPtr e)) ->
    detect_less k = Panic /\ detect_equal k = Panic.
  Proof. by intros [->|[->|[e ->]]]. Qed.

  (** ** Pointers are not compared by what they point to *)
  (** Pointers to numbers: a comparator is picked, and panics on every call. *)
  Theorem C105_pointer_to_number_refuted k : k = KInt \/ k = KUint \/ k = KFloat ->
    (exists f, detect_less (KPtr k) = Ok f /\ forall a b, f a b = Panic) /\
    (exists f, detect_equal (KPtr k) = Ok f /\ forall a b, f a b = Panic).
  Proof. by intros [->|[->| ->]]; split; eexists. Qed.
  (** Pointers to strings: all are equal, nil included. *)
  Theorem C105_pointer_to_string_refuted :
    exists f, detect_equal (KPtr KString) = Ok f /\ forall a b, f a b = Ok true.
  Proof. eexists. split; [done|]. intros a b. cbn. by rewrite String.eqb_refl. Qed.

  (** So Contains panics on a vector of them that is not empty, as it does for an unsupported type. *)
  Theorem C105_pointer_to_number_Contains k (w : vworld (val k)) v t :
    k = KOther \/ (exists e, k = KPtr e /\ e <> KString) -> v_equal (w_vec w v) = None -> vseq w v <> [] ->
    Contains (auto_equal k) v t w = Panic.
  Proof.
    intros Hk Hn Hne.
    assert (E : auto_equal k = None) by (destruct Hk as [->|(e & -> & He)]; [done|by destruct e]).
    unfold Contains, ContainsFunc, bind, get_d, read, lift, containsFunc, CmpEqual. cbn [cmp_equal]. rewrite Hn, E.
    unfold vseq in Hne. destruct (contents w (v_d (w_vec w v))) as [|x l]; [done|]. done.
  Qed.

  Context (growth : nat -> nat -> nat -> nat).
  Notation P := (val (KPtr KString)).
  Context (srt srt_stable : (P -> P -> Z) -> list P -> list P).
  Context (Hsrt : forall f l, srt f l ≡ₚ l) (Hsrt2 : forall f l, srt_stable f l ≡ₚ l).
  Notation reached := (v_reached None growth (auto_equal (KPtr KString)) srt srt_stable).
  (** So such a vector contains everything once it is not empty, and Compact leaves one element. *)
  Theorem C105_pointer_to_string_Contains (w : vworld P) v t : v_equal (w_vec w v) = None -> vseq w v <> [] ->
    Contains (auto_equal (KPtr KString)) v t w = Ok (true, w).
  Proof.
    intros Hn Hne.
    destruct (C43_Contains (auto_equal (KPtr KString)) w v t (fun _ _ => true)) as (b & -> & Hb); [cbn [cmp_equal]; by rewrite Hn|].
    assert (b = true) as ->; [|done]. apply Hb. destruct (vseq w v) as [|x l]; [done|]. exists x. split; [by left|done].
  Qed.
  Theorem C105_pointer_to_string_Compact (st : state P) v : reached st -> v < w_vn (fst st) -> v_equal (w_vec (fst st) v) = None ->
    exists w', Compact None (auto_equal (KPtr KString)) v (fst st) = Ok (tt, w') /\ vseq w' v = take 1 (vseq (fst st) v).
  Proof.
    intros Hr Hv Hn. apply (all_equal_Compact _ _ _ _ _ Hsrt Hsrt2 st v Hr Hv). cbn [cmp_equal]. by rewrite Hn.
  Qed.
End claims.

(** ** Examples *)
(** -0 = 0 < 1.5 (3 * 2^-1) < +Inf, and NaN is on no side. *)
Example C105_ex_floats :
  SFltb (S754_zero true) (S754_zero false) = false /\ SFeqb (S754_zero true) (S754_zero false) = true /\
  SFltb (S754_zero false) (S754_finite false 3 (-1)) = true /\ SFltb (S754_finite false 3 (-1)) (S754_infinity false) = true /\
  SFltb (S754_infinity false) S754_nan = false /\ SFltb S754_nan (S754_infinity false) = false /\ SFeqb S754_nan S754_nan = false.
Proof. by vm_compute. Qed.

(** A vector of three different pointers to strings and one nil. *)
Notation ptr := (val unit (KPtr KString)).
Notation peq := (auto_equal unit (KPtr KString)).
Definition ptr_ops : list (v_op ptr) := [ONew None None; OCall 0 (VPush [Some 7; Some 8; Some 9; None])].
Example C105_ex_pointers : exists st, v_reached (None : ptr) (fun _ _ n => 2 * n) peq isort isort st /\
  vseq (fst st) 0 = [Some 7; Some 8; Some 9; None] /\ v_equal (w_vec (fst st) 0) = None /\
  match Contains peq 0 (Some 4 : ptr) (fst st) with Ok (b, _) => b = true | _ => False end /\
  match Compact (None : ptr) peq 0 (fst st) with Ok (_, w') => vseq w' 0 = [Some 7] | _ => False end.
Proof.
  apply (run_reached _ _ _ _ _ ptr_ops). vm_compute. done.
Qed.
(** Pointers to ints: a vector of one element, Contains panics. *)
Example C105_ex_int_pointers : exists st, v_reached (None : val unit (KPtr KInt)) (fun _ _ n => 2 * n) (auto_equal unit (KPtr KInt)) isort isort st /\
  vseq (fst st) 0 = [Some 7] /\ Contains (auto_equal unit (KPtr KInt)) 0 (Some 7 : val unit (KPtr KInt)) (fst st) = Panic.
Proof.
  apply (run_reached _ _ _ _ _ [ONew None None; OCall 0 (VPush [Some 7])]). vm_compute. done.
Qed.

Print Assumptions C105_detected.
Print Assumptions C105_integers.
Print Assumptions C105_floats.
Print Assumptions C105_NaN_refuted.
Print Assumptions C105_strings.
Print Assumptions C105_unsupported.
Print Assumptions C105_pointer_to_number_refuted.
Print Assumptions C105_pointer_to_string_refuted.
Print Assumptions C105_pointer_to_number_Contains.
Print Assumptions C105_pointer_to_string_Contains.
Print Assumptions C105_pointer_to_string_Compact.
