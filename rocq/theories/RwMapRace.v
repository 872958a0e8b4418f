(** The list of accesses fits the steps of rwmap. *)
From Verif Require Import Base RwMapModel RwMapRaceSpec.

Section table.
Context {K : Type} `{Countable K} {V : Type}.
Context (deref : nat -> V) (zero : V) (veq : V -> V -> option bool).
Local Notation step := (step deref zero veq).

Ltac open_step Hs := unfold step_read, step_read2, step_dirty, step_load, add_key, dirty_store, missLocked, promote, goto in Hs;
  repeat (case_match; simplify_eq); try simplify_eq.

Ltac inl := by repeat first [apply elem_of_list_here | apply elem_of_list_further].

Lemma writes_only t (c : call K V) p s lab p' s' ev f :
  step t c p s lab = Some (p', s', ev) ->
  (forall a, a ∈ accesses c p s -> a_fld a = f -> a_write a = false) -> same_fld f s s'.
Proof.
  intros Hs Hf. destruct p, lab; cbn in Hs; try done; open_step Hs; cbn [accesses] in Hf;
    destruct f; cbn; try done;
    try (match goal with |- context [<[?e := _]> _ ?e'] => destruct (decide (e = e')) as [<-|Hne]; [|by rewrite fn_lookup_insert_ne] end);
    exfalso;
    first [specialize (Hf (wr FRead) ltac:(inl) eq_refl); done
          |specialize (Hf (pwr FDirty) ltac:(inl) eq_refl); done
          |specialize (Hf (pwr FMisses) ltac:(inl) eq_refl); done
          |specialize (Hf (pwr FLen) ltac:(inl) eq_refl); done
          |specialize (Hf (wr FLen) ltac:(inl) eq_refl); done
          |match goal with e : nat |- _ => specialize (Hf (wr (FEnt e)) ltac:(inl) eq_refl); done end
          |specialize (Hf (wr (FEnt (s_next s))) ltac:(inl) eq_refl); done|idtac].
Qed.
Lemma looks_only t (c : call K V) p s s2 lab p' s' ev :
  step t c p s lab = Some (p', s', ev) ->
  s_lock s = s_lock s2 -> s_next s = s_next s2 -> (forall a, a ∈ accesses c p s -> same_fld (a_fld a) s s2) ->
  exists s2', step t c p s2 lab = Some (p', s2', ev) /\ s_lock s' = s_lock s2' /\ s_next s' = s_next s2' /\
    forall a, a ∈ accesses c p s -> same_fld (a_fld a) s' s2'.
Proof.
  intros Hs El En Ha.
  destruct s as [rd1 am1 d1 en1 nx1 ms1 ln1 lk1], s2 as [rd2 am2 d2 en2 nx2 ms2 ln2 lk2]. cbn in El, En. subst lk2 nx2.
  destruct p, lab; cbn in Hs; try done; try destruct c; cbn in Ha;
  try (destruct (Ha (wr FRead) ltac:(inl)) as [Ea Eb]; cbn in Ea, Eb; subst rd2 am2);
  try (destruct (Ha (rd FRead) ltac:(inl)) as [Ea Eb]; cbn in Ea, Eb; subst rd2 am2);
  try (pose proof (Ha (pwr FDirty) ltac:(inl)) as Ea; cbn in Ea; subst d2);
  try (pose proof (Ha (prd FDirty) ltac:(inl)) as Ea; cbn in Ea; subst d2);
  try (pose proof (Ha (pwr FMisses) ltac:(inl)) as Ea; cbn in Ea; subst ms2);
  try (pose proof (Ha (pwr FLen) ltac:(inl)) as Ea; cbn in Ea; subst ln2);
  try (pose proof (Ha (wr FLen) ltac:(inl)) as Ea; cbn in Ea; subst ln2);
  try (pose proof (Ha (rd FLen) ltac:(inl)) as Ea; cbn in Ea; subst ln2);
  try (match goal with e : nat |- _ => pose proof (Ha (wr (FEnt e)) ltac:(inl)) as Ee; cbn in Ee end);
  try (match goal with e : nat |- _ => pose proof (Ha (rd (FEnt e)) ltac:(inl)) as Ee; cbn in Ee end);
  clear Ha;
  unfold step_read, step_read2, step_dirty, step_load, add_key, dirty_store, missLocked, promote, dirty_map, goto in *; cbn in *;
  unfold step_read, step_read2, step_dirty, step_load, add_key, dirty_store, missLocked, promote, dirty_map, goto in *; cbn in *;
  try rewrite <- Ee;
  repeat (case_match; simplify_eq); try simplify_eq;
  (eexists; split; [reflexivity|]; split; [done|]; split; [done|]; intros ac Hin;
   repeat (apply elem_of_cons in Hin as [->|Hin]; [cbn; rewrite ?fn_lookup_insert; first [done|congruence]|]); by apply elem_of_nil in Hin).
Qed.
End table.
