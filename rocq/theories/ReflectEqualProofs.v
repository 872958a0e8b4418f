(** Proofs about reflect.Value.Equal. *)
From Coq Require Import Floats.SpecFloat Strings.String.
From Verif Require Import Base ReflectEqual ReflectEqualSpec.

(** Induction on types and on values. *)
Fixpoint ty_ind' (P : ty -> Prop) (H : forall t, (match t with TArray _ _ e => P e | TStruct _ fs => Forall P fs | _ => True end) -> P t) (t : ty) : P t.
Proof.
  apply H. destruct t; try exact I.
  - exact (ty_ind' P H t).
  - induction fs as [|f fs IH]; constructor; [exact (ty_ind' P H f)|exact IH].
Qed.
Fixpoint gval_ind' (P : gval -> Prop)
  (H : forall v, (match v with VIface (Some (_, v)) => P v | VList vs => Forall P vs | _ => True end) -> P v) (v : gval) : P v.
Proof.
  apply H. destruct v as [| | | | | | |[[d v]|]|vs]; try exact I.
  - exact (gval_ind' P H v).
  - induction vs as [|v vs IH]; constructor; [exact (gval_ind' P H v)|exact IH].
Qed.

Lemma ty_eqb_spec t : forall u, ty_eqb t u = true <-> t = u.
Proof.
  induction t as [t IH] using ty_ind'. intros u.
  destruct t; destruct u; cbn [ty_eqb]; try (split; [done|intros [=]]); try (rewrite Nat.eqb_eq; split; [by intros ->|by intros [=]]).
  - rewrite !andb_true_iff, !Nat.eqb_eq, IH. split; [by intros [[-> ->] ->]|by intros [= -> -> ->]].
  - rewrite andb_true_iff, Nat.eqb_eq. match goal with |- context [?g fs fs0 = true] => set (go := g) end.
    assert (go fs fs0 = true <-> fs = fs0) as ->; [|split; [by intros [-> ->]|by intros [= -> ->]]].
    revert fs0. induction IH as [|f fs Hf _ IHfs]; intros [|g gs]; cbn; try done. 
    rewrite andb_true_iff, Hf, IHfs. split; [by intros [-> ->]|by intros [= -> ->]].
Qed.
Lemma ty_eqb_refl t : ty_eqb t t = true.
Proof. by apply ty_eqb_spec. Qed.

Lemma Comparable_spec t : Comparable t = true <-> comparable false t.
Proof.
  induction t as [t IH] using ty_ind'.
  destruct t; cbn [Comparable]; try (split; [by constructor|done]); try (split; [done|intros Hc; inversion Hc]).
  - rewrite IH. split; [by constructor|intros Hc; by inversion Hc].
  - assert (forallb Comparable fs = true <-> Forall (comparable false) fs) as ->; [|split; [by constructor|intros Hc; by inversion Hc]].
    induction IH as [|f fs Hf _ IHfs]; cbn; [done|]. by rewrite andb_true_iff, Hf, IHfs, Forall_cons.
Qed.
Lemma strict_comparable t : comparable true t -> comparable false t.
Proof.
  induction t as [t IH] using ty_ind'. intros H. inversion H; subst; constructor; auto; try done.
  - match goal with H : Forall _ fs |- _ => rename H into Hf end. clear H. induction IH; inversion Hf; subst; constructor; auto.
Qed.

(** [Equal] in pieces. *)
Definition eq_all (e : ty) : list gval -> list gval -> option bool :=
  fix go (vs us : list gval) {struct vs} : option bool :=
    match vs, us with
    | v :: vs, u :: us => match Equal v e u e with Some true => go vs us | r => r end
    | _, _ => Some true
    end.
Fixpoint eq_fields (vs us : list gval) (fs : list ty) : option bool :=
  match vs, us, fs with
  | v :: vs, u :: us, f :: fs => match Equal v f u f with Some true => eq_fields vs us fs | r => r end
  | _, _, _ => Some true
  end.
Definition same_type (t : ty) (v u : gval) : option bool :=
  match t, v, u with
  | TBool _, VBool a, VBool b => Some (Bool.eqb a b)
  | (TInt _ | TUint _), VNum a, VNum b => Some (Z.eqb a b)
  | TFloat _, VFloat a, VFloat b => Some (SFeqb a b)
  | TComplex _, VComplex a a', VComplex b b' => Some (SFeqb a b && SFeqb a' b')
  | TString _, VString a, VString b => Some (String.eqb a b)
  | (TChan _ | TPointer _ | TUnsafePointer _), VRef a, VRef b => Some (bool_decide (a = b))
  | TArray _ n e, VList vs, VList us =>
      if Nat.eqb n 0 then if Comparable e then Some true else None else eq_all e vs us
  | TStruct _ fs, VList vs, VList us => eq_fields vs us fs
  | _, _, _ => None
  end.
Lemma Equal_plain v t u t' d u' : ~ is_interface t -> elem t' u = Some (d, u') ->
  Equal v t u t' = if ty_eqb t d then same_type t v u' else Some false.
Proof.
  intros Ht He. destruct v; destruct t; cbn [Equal is_interface] in *; try (by destruct Ht); rewrite He; destruct (ty_eqb _ _); done.
Qed.
Lemma Equal_same v t u : ~ is_interface t -> Equal v t u t = same_type t v u.
Proof.
  intros Ht. rewrite (Equal_plain v t u t t u Ht); [by rewrite ty_eqb_refl|]. by destruct t.
Qed.
Lemma Equal_nil i u t' : Equal (VIface None) (TInterface i) u t' = Some (match elem t' u with None => true | Some _ => false end).
Proof. done. Qed.
Lemma Equal_dyn i d v u t' : Equal (VIface (Some (d, v))) (TInterface i) u t' = Equal v d u t'.
Proof. done. Qed.
Lemma Equal_dyn_nil v d u t' : ~ is_interface d -> elem t' u = None -> Equal v d u t' = Some false.
Proof. intros Hd He. destruct v; destruct d; cbn [Equal is_interface] in *; try (by destruct Hd); by rewrite He. Qed.

Lemma same_comparable t : forall v u, same t v u -> comparable false t.
Proof.
  induction t as [t IH] using ty_ind'. intros v u Hs. destruct t; inversion Hs; subst; try by constructor.
  constructor. match goal with H : Forall3 _ _ _ _ |- _ => rename H into H3 end. clear Hs. revert vs us H3.
  induction IH; intros vs us H3; inversion H3; subst; constructor; eauto.
Qed.
Lemma Some_true (b : bool) (P : Prop) : (b = true <-> P) -> (Some b = Some true <-> P).
Proof. intros <-. split; [by intros [=]|by intros ->]. Qed.
Lemma Equal_true v : forall t u, typed t v -> typed t u -> Equal v t u t = Some true <-> same t v u.
Proof.
  induction v as [v IH] using gval_ind'. intros t u Hv Hu.
  destruct Hv as [i b|i z|i z|i f|i f g|i s|i a|i a|i a|i|i|i|i|i d v Hd Hv|i n e vs Hn Hvs|i fs vs Hvs]; try (rewrite Equal_same by (intros []); cbn [same_type]).
  - inversion Hu; subst. cbn. apply Some_true. rewrite Bool.eqb_true_iff. split; [intros ->; constructor|intros Hs; by inversion Hs].
  - inversion Hu; subst. cbn. apply Some_true. rewrite Z.eqb_eq. split; [intros ->; constructor|intros Hs; by inversion Hs].
  - inversion Hu; subst. cbn. apply Some_true. rewrite Z.eqb_eq. split; [intros ->; constructor|intros Hs; by inversion Hs].
  - inversion Hu; subst. cbn. apply Some_true. split; [by constructor|intros Hs; by inversion Hs].
  - inversion Hu; subst. cbn. apply Some_true. rewrite andb_true_iff. split; [intros []; by constructor|intros Hs; by inversion Hs].
  - inversion Hu; subst. cbn. apply Some_true. rewrite String.eqb_eq. split; [intros ->; constructor|intros Hs; by inversion Hs].
  - inversion Hu; subst. cbn. apply Some_true. rewrite bool_decide_eq_true. split; [intros ->; constructor|intros Hs; by inversion Hs].
  - inversion Hu; subst. cbn. apply Some_true. rewrite bool_decide_eq_true. split; [intros ->; constructor|intros Hs; by inversion Hs].
  - inversion Hu; subst. cbn. apply Some_true. rewrite bool_decide_eq_true. split; [intros ->; constructor|intros Hs; by inversion Hs].
  - inversion Hu; subst. cbn. split; [done|intros Hs; inversion Hs].
  - inversion Hu; subst. cbn. split; [done|intros Hs; inversion Hs].
  - inversion Hu; subst. cbn. split; [done|intros Hs; inversion Hs].
  - rewrite Equal_nil. inversion Hu; subst; cbn; (split; [|intros Hs; by inversion Hs]); [constructor|done].
  - rewrite Equal_dyn. inversion Hu as [| | | | | | | | | | | |i' E1 E2|i' d' u' Hd' Hu' E1 E2| |]; subst.
    + rewrite Equal_dyn_nil by done. split; [done|intros Hs; inversion Hs].
    + rewrite (Equal_plain v d _ _ d' u') by done. destruct (ty_eqb d d') eqn:Et.
      * apply ty_eqb_spec in Et as <-. rewrite <- Equal_same by done. rewrite IH by done.
        split; [by constructor|intros Hs; by inversion Hs].
      * split; [done|]. intros Hs. inversion Hs; subst. by rewrite ty_eqb_refl in Et.
  - inversion Hu as [| | | | | | | | | | | | | |i' n' e' us Hn' Hus E1 E2|]; subst. destruct (Nat.eqb_spec (length vs) 0) as [H0|H0].
    + destruct vs; [|done]. destruct us; [|done]. destruct (Comparable e) eqn:Ec.
      * split; [|done]. intros _. constructor; [by apply Comparable_spec|constructor].
      * split; [done|]. intros Hs. inversion Hs; subst. assert (Comparable e = true) by (by apply Comparable_spec). congruence.
    + assert (eq_all e vs us = Some true <-> Forall2 (same e) vs us) as ->.
      { clear H0 Hu. revert us Hn' Hus. induction IH as [|v vs Hv IH IHvs]; intros [|u us] Hl Hus; try done.
        inversion Hvs; subst. inversion Hus; subst. rewrite Forall2_cons, <- Hv, <- IHvs by auto. cbn.
        destruct (Equal v e u e) as [[]|]; split; try done; by intros []. }
      split; [|intros Hs; by inversion Hs]. intros H2. constructor; [|done].
      destruct vs as [|v vs]; [done|]. inversion H2 as [|? u ? ? Hs]; subst. clear -Hs.
      by eapply same_comparable.
  - inversion Hu as [| | | | | | | | | | | | | | |i' fs' us Hus E1 E2]; subst.
    assert (eq_fields vs us fs = Some true <-> Forall3 same fs vs us) as ->; [|split; [by constructor|intros Hs; by inversion Hs]].
    clear Hu. revert fs us Hvs Hus. induction IH as [|v vs Hv IH IHvs]; intros fs us Hvs Hus.
    + inversion Hvs; subst. inversion Hus; subst. split; intros; [constructor|reflexivity].
    + inversion Hvs as [|f ? fs' ? Hf Hfs]; subst. inversion Hus as [|? u ? us' Hu Hus']; subst.
      assert (Forall3 same (f :: fs') (v :: vs) (u :: us') <-> same f v u /\ Forall3 same fs' vs us') as ->.
      { split; [intros Hs; by inversion Hs|intros []; by constructor]. }
      rewrite <- Hv, <- IHvs by auto. cbn. destruct (Equal v f u f) as [[]|]; split; try done; by intros [].
Qed.

(** No panic. *)
Lemma Equal_strict v : forall t u, comparable true t -> typed t v -> typed t u -> exists b, Equal v t u t = Some b.
Proof.
  induction v as [v IH] using gval_ind'. intros t u Hc Hv Hu.
  destruct Hv as [i b|i z|i z|i f|i f g|i s|i a|i a|i a|i|i|i|i|i d v Hd Hv|i n e vs Hn Hvs|i fs vs Hvs]; try (rewrite Equal_same by (intros []); cbn [same_type]).
  1-9: inversion Hu; subst; eauto.
  1-5: inversion Hc; done.
  - inversion Hu as [| | | | | | | | | | | | | |i' n' e' us Hn' Hus E1 E2|]; subst. inversion Hc as [| | | | | | | | | |i1 n1 e1 Hce|]; subst.
    rewrite (proj2 (Comparable_spec e)) by (by apply strict_comparable). case (Nat.eqb _ 0); [eauto|]. clear Hc Hu. revert us Hn' Hus.
    induction IH as [|v vs Hv IH IHvs]; intros [|u us] Hl Hus; try done; [by exists true|].
    inversion Hvs; subst. inversion Hus; subst. destruct (Hv e u) as [b Hb]; [done..|]. cbn. rewrite Hb. destruct b; [|eauto]. by apply IHvs; auto.
  - inversion Hu as [| | | | | | | | | | | | | | |i' fs' us Hus E1 E2]; subst. inversion Hc as [| | | | | | | | | | |i1 fs1 Hcf]; subst.
    clear Hu Hc. revert fs us Hvs Hus Hcf. induction IH as [|v vs Hv IH IHvs]; intros fs us Hvs Hus Hcf; [by exists true|].
    inversion Hvs as [|f ? fs' ? Hf Hfs]; subst. inversion Hus as [|? u ? us' Hu Hus']; subst. inversion Hcf; subst.
    destruct (Hv f u) as [b Hb]; [done..|]. cbn. rewrite Hb. destruct b; [|eauto]. by apply IHvs.
Qed.
(** A panic comes from a part that cannot be compared. *)
Lemma Equal_panics v : forall t u t', typed t v -> typed t' u -> Equal v t u t' = None -> exists d x, part t v d x /\ ~ comparable false d.
Proof.
  induction v as [v IH] using gval_ind'. intros t u t' Hv Hu HE.
  assert (~ is_interface t -> exists u', typed t u' /\ same_type t v u' = None) as Hst.
  { intros Ht. destruct (elem t' u) as [[d u']|] eqn:Ee; [|by rewrite Equal_dyn_nil in HE].
    rewrite (Equal_plain _ _ _ _ _ _ Ht Ee) in HE. destruct (ty_eqb t d) eqn:Et; [|done]. apply ty_eqb_spec in Et as <-.
    exists u'. split; [|done]. destruct Hu; cbn in Ee; try (injection Ee as <- <-; by constructor); [done|]. injection Ee as <- <-. done. }
  destruct Hv as [i b|i z|i z|i f|i f g|i s|i a|i a|i a|i|i|i|i|i d v Hd Hv|i n e vs Hn Hvs|i fs vs Hvs].
  1-9: destruct Hst as (u'&Hu'&Hs); [by intros []|]; inversion Hu'; subst; done.
  1-3: eexists _, _; split; [apply pt_self|intros Hc; inversion Hc].
  - done.
  - rewrite Equal_dyn in HE. destruct (IH d u t' Hv Hu HE) as (d'&x&Hp&Hc). exists d', x. split; [by constructor|done].
  - destruct Hst as (u'&Hu'&Hs); [by intros []|]. inversion Hu' as [| | | | | | | | | | | | | |i' n' e' us Hn' Hus E1 E2|]; subst. cbn [same_type] in Hs.
    destruct (Nat.eqb_spec (length vs) 0) as [H0|H0].
    + destruct (Comparable e) eqn:Ec; [done|]. eexists _, _. split; [apply pt_self|]. intros Hc. inversion Hc as [| | | | | | | | | |i1 n1 e1 Hce|]; subst.
      apply Comparable_spec in Hce. congruence.
    + assert (exists v, v ∈ vs /\ exists d x, part e v d x /\ ~ comparable false d) as (v&Hin&d&x&Hp&Hc).
      { clear H0 HE Hu Hu'. revert us Hn' Hus Hs. induction IH as [|v vs Hv IH IHvs]; intros [|u1 us] Hl Hus Hs; try done.
        inversion Hvs; subst. inversion Hus; subst. cbn in Hs. destruct (Equal v e u1 e) as [[]|] eqn:E1.
        - destruct (IHvs) with (us := us) as (w&Hw&?); [done|auto|done|done|]. exists w. split; [by right|done].
        - done.
        - exists v. split; [by left|]. by eapply Hv. }
      exists d, x. split; [by econstructor|done].
  - destruct Hst as (u'&Hu'&Hs); [by intros []|]. inversion Hu' as [| | | | | | | | | | | | | | |i' fs' us Hus E1 E2]; subst. cbn [same_type] in Hs.
    assert (exists k f v, fs !! k = Some f /\ vs !! k = Some v /\ exists d x, part f v d x /\ ~ comparable false d) as (k&f&v&Hf&Hk&d&x&Hp&Hc).
    { clear HE Hu Hu'. revert fs us Hvs Hus Hs. induction IH as [|v vs Hv IH IHvs]; intros fs us Hvs Hus Hs; [done|].
      inversion Hvs as [|f ? fs' ? Hf Hfs]; subst. inversion Hus as [|? u1 ? us' Hu1 Hus']; subst. cbn in Hs.
      destruct (Equal v f u1 f) as [[]|] eqn:E1.
      - destruct (IHvs fs' us' Hfs Hus' Hs) as (k&g&w&?&?&?). by exists (S k), g, w.
      - done.
      - exists 0, f, v. split; [done|]. split; [done|]. by eapply Hv. }
    exists d, x. split; [by econstructor|done].
Qed.
Lemma Equal_opaque t v u : typed t v -> typed t u -> (match t with TFunc _ | TMap _ | TSlice _ => True | _ => False end) -> Equal v t u t = None.
Proof. intros Hv Hu Ht. rewrite Equal_same by (destruct t; try done; by intros []). destruct t; try done; inversion Hv; done. Qed.
