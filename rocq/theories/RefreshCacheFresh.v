(** Where the values returned by Get come from. *)
From Coq Require Import ZifyBool.
From Verif Require Import Base RefreshCacheModel RefreshCacheSpec RefreshCacheProofs.

Section fresh.
Context {T E F : Type} (zero : T) (maxAge errAge : Z).
Local Notation event := (event T E F).
Local Notation config := (config T E F).
Local Notation pc := (pc T E F).
Local Notation shared := (shared T E F).
Local Notation run := (run zero maxAge errAge).
Local Notation act := (act zero maxAge errAge).
Local Notation step := (step zero maxAge errAge).

Ltac step_inv H :=
  match type of H with
  | RefreshCacheModel.step _ _ _ _ ?p ?s ?lab = _ =>
    destruct p as [f|f l| |f|f n| |f|f|f|f n| |f|f n| |f|[f|]|f old|r v|r|r n|r|r e|r|r n|r|r
                  |f|[[f old]|]|f old| |l| | |n| | |v| | | | | |f|f|r];
    destruct lab as [|n'|o|[e'|]]; cbn in H; try discriminate H;
    repeat (match type of H with
            | context [if ?b then _ else _] => destruct b eqn:?
            | context [match s_lock s with _ => _ end] => destruct (s_lock s) eqn:?
            | context [match s_ref s with _ => _ end] => destruct (s_ref s) as [[?|]|] eqn:?
            | context [match s_clr s with _ => _ end] => destruct (s_clr s) as [[?|]|] eqn:?
            end; try discriminate H);
    injection H as <- <- <-
  end.

(** ** A recorded failure always has its error *)
Definition err_ok (s : shared) (p : pc) : Prop :=
  match p with
  | D_enow _ | D_lasterr _ _ => s_err s <> None
  | _ => True
  end.
Definition errs (cf : config) : Prop :=
  (s_lasterr (c_sh cf) <> 0%Z -> s_err (c_sh cf) <> None) /\
  forall t p, c_thr cf t = Some p -> err_ok (c_sh cf) p.

Lemma errs_act cf a cf' ev : errs cf -> act cf a = Some (cf', ev) -> errs cf'.
Proof.
  intros [H1 H2] H. destruct a as [t c|t lab]; cbn in H.
  - destruct (c_thr cf t) as [q|] eqn:Et; [done|]. injection H as <- <-. split; [done|].
    intros t' p. cbn. destruct (decide (t = t')) as [->|Hn].
    + rewrite fn_lookup_insert. intros [= <-]. by destruct c as [f|f|[f|]| | | | | | |f|f].
    + rewrite fn_lookup_insert_ne by done. apply H2.
  - destruct (c_thr cf t) as [p|] eqn:Et; [|done].
    destruct (step t p (c_sh cf) lab) as [[[q s'] ev']|] eqn:Es; [|done].
    injection H as <- <-. pose proof (H2 _ _ Et) as Hp. unfold errs. cbn.
    assert ((s_lasterr s' <> 0%Z -> s_err s' <> None) /\
            (forall p', q = Some p' -> err_ok s' p') /\
            (s_err (c_sh cf) <> None -> s_err s' <> None)) as (A1&A2&A3).
    { generalize dependent (c_sh cf). intros s H1 H2 Es Hp. clear H2 Et.
      step_inv Es; cbn in *; (split; [try done|]);
        (split; [intros ? [= <-]; try done || intros ? [=]|]); try done.
      by destruct o. }
    split; [done|]. intros t' p'. destruct (decide (t = t')) as [->|Hn].
    + rewrite fn_lookup_insert. apply A2.
    + rewrite fn_lookup_insert_ne by done. intros H0. specialize (H2 _ _ H0).
      destruct p'; cbn in *; auto.
Qed.

(** ** Produced values *)
Lemma produced_app tr ev (v : T) : produced tr v -> produced (E := E) (F := F) (tr ++ ev) v.
Proof.
  intros (u&f&old&a&b&c&->). exists u, f, old, a, b, (c ++ ev).
  rewrite <- (assoc_L (++)). cbn. rewrite <- (assoc_L (++)). done.
Qed.

Definition okres (tr : list event) (r : result T E) : Prop :=
  forall v, r = RGet v None -> produced tr v.

(** What holds of every goroutine. *)
Definition any_ok (tr : list event) (s : shared) (t : nat) (p : pc) : Prop :=
  match p with
  | C_run f old => exists a b, tr = a ++ EStart t f old :: b
  | D_data r v => produced tr v /\ okres tr r
  | D_now r | D_last r _ | D_lasterr0 r => produced tr (s_data s) /\ okres tr r
  | D_err r _ | D_enow r | D_lasterr r _ | D_last0 r => okres tr r
  | _ => True
  end.

(** What holds of goroutines whose call began in [tr]. *)
Definition track_ok (tr : list event) (s : shared) (p : pc) : Prop :=
  match p with
  | G_fresh _ l => l <> 0%Z -> produced tr (s_data s)
  | G_data | L_data => produced tr (s_data s)
  | G_err1 _ n | L_err1 _ n => (errAge <= n)%Z
  | G_err | L_err => s_err s <> None
  | L_fresh _ n => (maxAge <= n)%Z
  | U_unlock r | X_ret r => okres tr r
  | _ => True
  end.

Definition tracked (tr : list event) (t : nat) : Prop := exists c, EInv t c ∈ tr.

Definition sane (tr : list event) : Prop :=
  no_panic tr /\ readings (fun n => (maxAge <= n)%Z /\ (errAge <= n)%Z) tr.

Definition J (tr : list event) (cf : config) : Prop :=
  (s_last (c_sh cf) <> 0%Z -> produced tr (s_data (c_sh cf))) /\
  forall t p, c_thr cf t = Some p ->
    any_ok tr (c_sh cf) t p /\ (tracked tr t -> track_ok tr (c_sh cf) p).

Lemma sane_app tr ev : sane (tr ++ ev) -> sane tr /\ sane ev.
Proof.
  intros [H1 H2]. split; (split; [intros t Ht; apply (H1 t); apply elem_of_app; auto
    | intros t n Ht; apply (H2 t n); apply elem_of_app; auto]).
Qed.

Lemma okres_app tr ev r : okres tr r -> okres (tr ++ ev) r.
Proof. intros H v Hv. by apply produced_app, H. Qed.

Lemma J_own tr t p (s s' : shared) lab q ev :
  step t p s lab = Some (q, s', ev) -> sane ev ->
  (s_lasterr s <> 0%Z -> s_err s <> None) -> 
  (s_last s <> 0%Z -> produced tr (s_data s)) -> 
  any_ok tr s t p -> (tracked tr t -> track_ok tr s p) ->
  (s_last s' <> 0%Z -> produced (tr ++ ev) (s_data s')) /\
  (forall p', q = Some p' ->
     any_ok (tr ++ ev) s' t p' /\ (tracked tr t -> track_ok (tr ++ ev) s' p')) /\
  (produced tr (s_data s) -> produced (tr ++ ev) (s_data s')).
Proof.
  intros H [S1 S2] He Hl Ha Ht.
  assert (forall n, ENow t n ∈ ev -> (maxAge <= n)%Z /\ (errAge <= n)%Z) as S3 by (intros n; apply S2).
  clear S2. pose proof (S1 t) as S4. clear S1.
  pose proof (produced_app tr ev) as PA. pose proof (okres_app tr ev) as OA.
  step_inv H; cbn in Ha, Ht; cbn;
    (split; [try (intros ?; apply PA; apply Hl; done)
            |split; [intros p' Hq; try discriminate Hq; try (injection Hq as <-)|]]);
    try (intros ?; apply PA; done);
    try (split; [exact I|]; intros Hk; exact I);
    try (specialize (S3 n' (elem_of_list_here _ _)));
    try done.
  all: cbn.
  all: try (split; [exact I|]; intros Hk; specialize (Ht Hk); try exact I).
  all: try (apply PA; done).
  all: try (apply OA; done).
  all: try (apply PA; apply Ht; lia).
  all: try (intros v0 [= <-]; apply PA; done).
  all: try lia.
  all: try (intros Hz; apply PA; apply Hl; exact Hz).
  all: try (apply PA, Hl; lia).
  all: try (apply He; lia).
  all: try (intros v0 [= _ Hx]; exfalso; apply Ht; exact Hx).
  all: try (intros v0 [=]; fail).
  all: try (intros _; apply PA; apply (proj1 Ha)).
  all: try (split; [|intros _; exact I]).
  all: try (split; [apply PA; apply (proj1 Ha)|apply OA; apply (proj2 Ha)]).
  all: try (apply OA; apply (proj2 Ha)).
  all: try (apply OA; apply Ha).
  - by exists tr, [].
  - exfalso. apply S4. apply elem_of_list_here.
  - destruct Ha as (a&b&->). destruct o as [w|w e|].
    + split; [|done]. assert (produced ((a ++ EStart t f old :: b) ++ [EFinish t (OOk w)]) w) as Hw.
      { exists t, f, old, a, b, []. rewrite <- (assoc_L (++)). done. }
      split; [exact Hw|]. by intros v [= <-].
    + split; [|done]. by intros v [=].
    + exfalso. apply S4. apply elem_of_list_here.
Qed.

(** Goroutines that stand still. *)
Lemma J_other tr ev (s s' : shared) t p :
  (produced tr (s_data s) -> produced (tr ++ ev) (s_data s')) ->
  (s_err s <> None -> s_err s' <> None) ->
  any_ok tr s t p /\ (tracked tr t -> track_ok tr s p) ->
  any_ok (tr ++ ev) s' t p /\ (tracked tr t -> track_ok (tr ++ ev) s' p).
Proof.
  intros H1 H2 [Ha Ht]. pose proof (okres_app tr ev) as OA. pose proof (produced_app tr ev) as PA.
  split; [|intros Hk; specialize (Ht Hk)]; destruct p; cbn in *; eauto; try (by intuition eauto).
  destruct Ha as (a&b&->). exists a, (b ++ ev). by rewrite <- (assoc_L (++)).
Qed.

Lemma step_no_inv t p (s : shared) lab q s' ev :
  step t p s lab = Some (q, s', ev) -> forall u c, EInv u c ∉ ev.
Proof.
  intros H u c Hin. apply step_cases in H as H0.
  step_inv H; cbn in Hin; repeat (apply elem_of_cons in Hin as [Hin|Hin]; [discriminate Hin|]);
    by apply elem_of_nil in Hin.
Qed.

Lemma step_err t p (s : shared) lab q s' ev :
  step t p s lab = Some (q, s', ev) -> s_err s <> None -> s_err s' <> None.
Proof. intros H He. by step_inv H. Qed.

Lemma J_act tr cf a cf' ev :
  errs cf -> J tr cf -> act cf a = Some (cf', ev) -> sane ev -> J (tr ++ ev) cf'.
Proof.
  intros HE [J1 J2] H HS. destruct a as [t c|t lab]; cbn in H.
  - destruct (c_thr cf t) as [q|] eqn:Et; [done|]. injection H as <- <-. unfold J. cbn.
    split; [intros ?; by apply produced_app, J1|].
    intros t' p. destruct (decide (t = t')) as [->|Hn].
    + rewrite fn_lookup_insert. intros [= <-]. by destruct c as [f|f|[f|]| | | | | | |f|f].
    + rewrite fn_lookup_insert_ne by done. intros Hp. specialize (J2 _ _ Hp).
      eapply (J_other tr [EInv t c] (c_sh cf) (c_sh cf)) in J2 as [J3 J4];
        [|apply produced_app|done].
      split; [done|]. intros [c' Hc']. apply J4. exists c'.
      apply elem_of_app in Hc' as [?|Hc']; [done|]. apply elem_of_list_singleton in Hc'. congruence.
  - destruct (c_thr cf t) as [p|] eqn:Et; [|done].
    destruct (step t p (c_sh cf) lab) as [[[q s'] ev']|] eqn:Es; [|done].
    injection H as <- <-. destruct (J2 _ _ Et) as [Ha Ht].
    destruct (J_own tr _ _ _ _ _ _ _ Es HS (proj1 HE) J1 Ha Ht) as (A1&A2&A3).
    assert (forall u, tracked (tr ++ ev') u -> tracked tr u) as Htr.
    { intros u [c Hc]. exists c. apply elem_of_app in Hc as [?|Hc]; [done|].
      by apply (step_no_inv _ _ _ _ _ _ _ Es) in Hc. }
    split; [done|]. cbn. intros t' p'. destruct (decide (t = t')) as [->|Hn].
    + rewrite fn_lookup_insert. intros Hp'. destruct (A2 _ Hp') as [B1 B2]. split; auto.
    + rewrite fn_lookup_insert_ne by done. intros Hp'. specialize (J2 _ _ Hp').
      eapply J_other in J2 as [B1 B2]; [split; eauto|done|]. by eapply step_err.
Qed.

Lemma J_run acts tr cf cf' ev :
  errs cf -> J tr cf -> run cf acts = Some (cf', ev) -> sane ev -> errs cf' /\ J (tr ++ ev) cf'.
Proof.
  revert tr cf ev. induction acts as [|a acts IH]; intros tr cf ev HE HJ H HS; cbn in H.
  { injection H as <- <-. by rewrite app_nil_r. }
  destruct (act cf a) as [[c1 e1]|] eqn:Ea; [|done].
  destruct (run c1 acts) as [[c2 e2]|] eqn:Er; [|done].
  injection H as <- <-. apply sane_app in HS as [HS1 HS2]. rewrite (assoc_L (++)).
  eapply IH; [by eapply errs_act|by eapply J_act|done|done].
Qed.

Lemma errs_run acts cf cf' ev : errs cf -> run cf acts = Some (cf', ev) -> errs cf'.
Proof.
  intros HE H. refine (run_inv zero maxAge errAge (fun _ => errs) _ acts [] cf cf' ev HE H).
  intros _ ? ? ? ?. apply errs_act.
Qed.

Lemma errs_new (f : option F) : errs (new_config zero f).
Proof. split; [done|]. intros t p. done. Qed.

Lemma J_new (f : option F) : J [] (new_config zero f).
Proof. split; [done|]. intros t p. done. Qed.

(** A Get or Refresh of a goroutine whose call began in the segment gives a produced value. *)
Lemma J_return tr cf t cf' pre post v a :
  J tr cf -> act cf a = Some (cf', pre ++ EReturn t (RGet v None) :: post) -> tracked tr t ->
  produced tr v.
Proof.
  intros [J1 J2] H Htr. destruct a as [t' c|t' lab]; cbn in H.
  { destruct (c_thr cf t'); [done|]. injection H as _ H. destruct pre as [|? [|]]; done. }
  destruct (c_thr cf t') as [p|] eqn:Et; [|done].
  destruct (step t' p (c_sh cf) lab) as [[[q s'] ev']|] eqn:Es; [|done].
  injection H as _ ->. remember (pre ++ EReturn t (RGet v None) :: post) as ev eqn:Hev.
  destruct (J2 _ _ Et) as [_ Ht]. rename v into v1.
  step_inv Es; destruct pre as [|x [|y [|z pre]]]; try discriminate Hev.
  injection Hev as -> -> _. by apply (Ht Htr).
Qed.

(** ** After a Clear with no refresh in flight *)
Lemma J_clear tr cf a cf' pre t post :
  inv zero tr cf -> act cf a = Some (cf', pre ++ EClear t :: post) ->
  pre = [] /\ (in_flight tr = None -> J [] cf') /\
  (post = [] \/ exists f old, post = [EKStart t f old]).
Proof.
  intros [HL HI] H. destruct a as [t' c|t' lab]; cbn in H.
  { destruct (c_thr cf t'); [done|]. injection H as _ H. destruct pre as [|? [|]]; done. }
  destruct (c_thr cf t') as [p|] eqn:Et; [|done].
  destruct (step t' p (c_sh cf) lab) as [[[q s'] ev']|] eqn:Es; [|done].
  injection H as <- ->.
  assert (pre = [] /\ s' = set_last 0%Z (c_sh cf) /\
          (forall p', q = Some p' -> any_ok [] s' t' p') /\
          (post = [] \/ exists f old, post = [EKStart t f old])) as (->&->&Hq&Hp).
  { remember (pre ++ EClear t :: post) as ev eqn:Hev.
    step_inv Es; destruct pre as [|x [|y [|z pre]]]; try discriminate Hev;
      injection Hev as -> <-; (split; [done|]); (split; [done|]);
      (split; [intros p' [= <-]; done|]); eauto. }
  split; [done|]. split; [|done]. intros Hf. split; [done|]. cbn. intros u p'.
  destruct (decide (t' = u)) as [->|Hn].
  - rewrite fn_lookup_insert. intros Hp'. split; [by apply Hq|]. intros [c Hc].
    by apply elem_of_nil in Hc.
  - rewrite fn_lookup_insert_ne by done. intros Hp'. split; [|intros [c Hc]; by apply elem_of_nil in Hc].
    destruct (holds p') eqn:Eh; [|by destruct p'].
    rewrite (HL _ _ Hp' Eh) in HI. destruct HI as (p0&Hu&_&L).
    assert (p0 = p') as -> by congruence. destruct L as (_&L&_).
    destruct p'; try done; rewrite Hf in L; discriminate L.
Qed.

(** C61, with the side conditions. *)
Lemma values_produced (f : option F) acts cf (tr1 : list event) t v tr2 :
  run (new_config zero f) acts = Some (cf, tr1 ++ EReturn t (RGet v None) :: tr2) ->
  no_panic tr1 -> readings (fun n => (maxAge <= n)%Z /\ (errAge <= n)%Z) tr1 ->
  produced tr1 v.
Proof.
  intros H Hp Hr. apply run_split in H as (acts1&a&acts2&cf1&cf2&evs0&pre&post&evs3&->&H1&H2&H3&->&->).
  assert (sane evs0 /\ sane pre) as [HS _] by (apply sane_app; by split).
  destruct (J_run _ [] _ _ _ (errs_new f) (J_new f) H1 HS) as [HE HJ]. cbn in HJ.
  apply produced_app. eapply J_return; [exact HJ|exact H2|].
  assert (exists p, c_thr cf1 t = Some p) as [p Hp'].
  { destruct a as [t' c|t' lab]; cbn in H2.
    - destruct (c_thr cf1 t'); [done|]. injection H2 as _ H2. destruct pre as [|? [|]]; done.
    - destruct (c_thr cf1 t') as [p|] eqn:Et; [|done].
      destruct (step t' p (c_sh cf1) lab) as [[[q s'] ev']|] eqn:Es; [|done].
      injection H2 as _ ->. remember (pre ++ EReturn t (RGet v None) :: post) as ev eqn:Hev.
      rename v into v1. rename f into f1.
      step_inv Es; destruct pre as [|x [|y [|z pre]]]; try discriminate Hev.
      injection Hev as -> ->. eauto. }
  (* a goroutine inside a call made that call *)
  clear -Hp' H1. revert Hp'.
  assert (forall acts tr cf cf' ev, run cf acts = Some (cf', ev) ->
    (forall t p, c_thr cf t = Some p -> tracked tr t) ->
    forall t p, c_thr cf' t = Some p -> tracked (tr ++ ev) t) as G.
  { clear. intros acts tr cf cf' ev H H0.
    refine (run_inv zero maxAge errAge (fun tr cf => forall t p, c_thr cf t = Some p -> tracked tr t)
              _ acts tr cf cf' ev H0 H).
    clear. intros tr cf a cf' ev HI H t p Hp. destruct a as [t' c|t' lab]; cbn in H.
    - destruct (c_thr cf t'); [done|]. injection H as <- <-. cbn in Hp.
      destruct (decide (t' = t)) as [->|Hn].
      + exists c. apply elem_of_app. right. apply elem_of_list_here.
      + rewrite fn_lookup_insert_ne in Hp by done. destruct (HI _ _ Hp) as [c' Hc'].
        exists c'. apply elem_of_app. by left.
    - destruct (c_thr cf t') as [p'|] eqn:Et; [|done].
      destruct (step t' p' (c_sh cf) lab) as [[[q s'] ev']|] eqn:Es; [|done].
      injection H as <- <-. cbn in Hp.
      assert (tracked tr t) as [c Hc].
      { destruct (decide (t' = t)) as [->|Hn]; [by eapply HI|].
        rewrite fn_lookup_insert_ne in Hp by done. by eapply HI. }
      exists c. apply elem_of_app. by left. }
  intros Hp'. apply (G _ [] _ _ _ H1 (fun t p (e : None = Some p) => ltac:(discriminate e)) _ _ Hp').
Qed.

(** C65, with the side conditions. *)
Lemma clear_forces (f : option F) acts cf (tr1 : list event) u tr2 t c (tr3 : list event) v tr4 :
  run (new_config zero f) acts =
    Some (cf, tr1 ++ EClear u :: tr2 ++ EInv t c :: tr3 ++ EReturn t (RGet v None) :: tr4) ->
  in_flight tr1 = None ->
  no_panic (tr2 ++ EInv t c :: tr3) ->
  readings (fun n => (maxAge <= n)%Z /\ (errAge <= n)%Z) (tr2 ++ EInv t c :: tr3) ->
  produced (tr2 ++ EInv t c :: tr3) v.
Proof.
  intros H Hf Hp Hr.
  apply run_split in H as (acts1&a&acts2&cf1&cf2&evs0&pre&post&evs3&->&H1&H2&H3&->&Hev).
  pose proof (inv_run zero maxAge errAge _ _ _ _ H1) as HI.
  pose proof (errs_run _ _ _ _ (errs_new f) H1) as HE.
  destruct (J_clear _ _ _ _ _ _ _ HI H2) as (->&HJ&Hpost). rewrite app_nil_r in Hf.
  specialize (HJ Hf). pose proof (errs_act _ _ _ _ HE H2) as HE2.
  assert (exists X Y, tr2 ++ EInv t c :: tr3 = post ++ X ++ Y /\ Y = [] /\
                    evs3 = X ++ EReturn t (RGet v None) :: tr4 /\ EInv t c ∈ X) as (X&Y&HX&->&->&Hc).
  { destruct Hpost as [->|(g&old&->)].
    - exists (tr2 ++ EInv t c :: tr3), []. cbn in Hev. subst evs3. rewrite app_nil_r.
      split; [done|]. split; [done|]. split; [by rewrite <- (assoc_L (++))|].
      apply elem_of_app. right. apply elem_of_list_here.
    - destruct tr2 as [|x tr2]; [done|]. cbn in Hev. injection Hev as -> <-.
      exists (tr2 ++ EInv t c :: tr3), []. rewrite app_nil_r.
      split; [done|]. split; [done|]. split; [by rewrite <- (assoc_L (++))|].
      apply elem_of_app. right. apply elem_of_list_here. }
  rewrite app_nil_r in HX. rewrite HX in Hp, Hr |- *.
  assert (sane post /\ sane X) as [_ HS] by (apply sane_app; by split).
  assert (J post cf2) as HJ2.
  { destruct HJ as [J1 J2]. split; [intros Hz; apply (produced_app [] post); by apply J1|].
    intros t' p Hp'. specialize (J2 _ _ Hp').
    apply (J_other [] post (c_sh cf2) (c_sh cf2)) in J2 as [J3 J4];
      [|apply (produced_app [] post)|done].
    split; [done|]. intros [c' Hc']. destruct Hpost as [->|(g&old&->)].
    - by apply elem_of_nil in Hc'.
    - by apply elem_of_list_singleton in Hc'. }
  apply run_split in H3 as (acts3&b&acts4&cf3&cf4&evs4&pre4&post4&evs5&->&H4&H5&H6&->&->).
  apply sane_app in HS as [HS _].
  destruct (J_run _ _ _ _ _ HE2 HJ2 H4 HS) as [_ HJ3].
  rewrite (assoc_L (++)). apply produced_app. eapply J_return; [exact HJ3|exact H5|].
  exists c. apply elem_of_app. right. apply elem_of_app in Hc as [?|Hc]; [done|].
  exfalso. assert (pre4 = []) as ->; [|by apply elem_of_nil in Hc].
  destruct b as [t' c'|t' lab]; cbn in H5.
  - destruct (c_thr cf3 t'); [done|]. injection H5 as _ H5. destruct pre4 as [|? [|]]; done.
  - destruct (c_thr cf3 t') as [p|] eqn:Et; [|done].
    destruct (step t' p (c_sh cf3) lab) as [[[q s'] ev']|] eqn:Es; [|done].
    injection H5 as _ ->. remember (pre4 ++ EReturn t (RGet v None) :: post4) as ev eqn:Hev4.
    clear -Es Hev4. rename v into v1.
    step_inv Es; destruct pre4 as [|x [|y [|z pre]]]; try discriminate Hev4. done.
Qed.

End fresh.
