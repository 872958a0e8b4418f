(** Proofs about which user function a call of the refresh cache runs. *)
From Verif Require Import Base RefreshCacheModel RefreshCacheSpec RefreshCacheProofs
  RefreshCacheCallSpec.

Section proofs.
Context {T E F : Type} (zero : T) (maxAge errAge : Z) (f0 : option F).
Local Notation event := (event T E F).
Local Notation config := (config T E F).
Local Notation shared := (shared T E F).
Local Notation pc := (pc T E F).

Lemma current_app t (tr ev : list event) :
  current t (tr ++ ev) =
  foldl (fun c e => match e with
                    | EInv u d => if Nat.eqb u t then Some d else c
                    | EReturn u _ => if Nat.eqb u t then None else c
                    | _ => c
                    end) (current t tr) ev.
Proof. apply foldl_app. Qed.

(** What a goroutine inside the call [c] at [p] keeps. *)
Definition getting (c : call F) : Prop :=
  match c with CGet _ | CRefresh _ | CWGet | CWRefresh => True | _ => False end.
Definition clearing (c : call F) : Prop := match c with CClear _ | CWClear => True | _ => False end.

Definition good (tr : list event) (c : call F) (p : pc) : Prop :=
  match p with
  | G_last f | G_fresh f _ | G_err0 f | G_err1 f _ | G_lock f | L_last f | L_now f | L_fresh f _
  | L_err0 f | L_err1 f _ | R_lock f | C_old f => may_refresh f0 tr c f
  | C_run f _ => may_refresh f0 tr c (Some f)
  | G_data | G_err | L_data | L_err => getting c
  | D_err _ _ | D_enow _ | D_lasterr _ _ | D_last0 _ | D_data _ _ | D_now _ | D_last _ _
  | D_lasterr0 _ | U_unlock _ => getting c /\
      match p with
      | D_err r _ | D_enow r | D_lasterr r _ | D_last0 r | D_data r _ | D_now r | D_last r _
      | D_lasterr0 r | U_unlock r => fits c r
      | _ => True
      end
  | K_old f | K_run f _ | K_last (Some (f, _)) => may_clear tr c (Some f)
  | K_last None => clearing c
  | W_last | W_fresh _ | W_data | W_err0 | W_err1 _ | W_err | W_data2 | W_err2 _ => c = CRaw
  | X_last => c = CLast
  | X_lasterr => c = CLastErr
  | X_get => c = CWGet
  | X_refresh => c = CWRefresh
  | X_clear => c = CWClear
  | X_setref f => c = CSetRefresh f /\ set_as_refresh f0 tr f
  | X_setclr f => c = CSetClear f /\ set_as_clear tr f
  | X_ret r => fits c r
  end.

Definition known (tr : list event) (s : shared) : Prop :=
  (exists f, s_ref s = Some f /\ set_as_refresh f0 tr f) /\
  (forall f, s_clr s = Some f -> set_as_clear tr f).

Definition cinv (tr : list event) (cf : config) : Prop :=
  known tr (c_sh cf) /\
  forall t, match c_thr cf t with
            | None => current t tr = None
            | Some p => exists c, current t tr = Some c /\ good tr c p
            end.

Lemma set_refresh_mono (tr ev : list event) f : set_as_refresh f0 tr f -> set_as_refresh f0 (tr ++ ev) f.
Proof. intros [?|[u ?]]; [by left|right; exists u; set_solver]. Qed.
Lemma set_clear_mono (tr ev : list event) f : set_as_clear tr f -> set_as_clear (tr ++ ev) f.
Proof. intros [u ?]. exists u; set_solver. Qed.
Lemma may_refresh_mono (tr ev : list event) c f : may_refresh f0 tr c f -> may_refresh f0 (tr ++ ev) c f.
Proof. destruct c; try done; apply set_refresh_mono. Qed.
Lemma may_clear_mono (tr ev : list event) c f : may_clear tr c f -> may_clear (tr ++ ev) c f.
Proof. destruct c; try done; apply set_clear_mono. Qed.
Lemma good_mono tr ev c p : good tr c p -> good (tr ++ ev) c p.
Proof.
  destruct p; cbn; try done; try apply may_refresh_mono; try apply may_clear_mono;
    try (intros [??]; split; [done|by (apply set_refresh_mono || apply set_clear_mono)]).
  by repeat case_match; try apply may_clear_mono.
Qed.

Lemma may_getting (tr : list event) c f : may_refresh f0 tr c f -> getting c.
Proof. by destruct c. Qed.
Lemma may_clearing (tr : list event) c f : may_clear tr c f -> clearing c.
Proof. by destruct c. Qed.
Lemma fits_get c (r : result T E) : getting c -> (exists v e, r = RGet v e) \/ r = RPanic -> fits c r.
Proof. intros H [(v&e&->)| ->]; by destruct c. Qed.
Lemma fits_clear c (r : result T E) : clearing c -> (exists e, r = RClear e) \/ r = RPanic -> fits c r.
Proof. intros H [(e&->)| ->]; by destruct c. Qed.

Ltac not_in := let H := fresh "H" in intros ?? H;
  repeat (apply elem_of_cons in H as [H|H]; [discriminate H|]); by apply elem_of_nil in H.

Definition right_event (t : nat) (tr : list event) (c : call F) (e : event) : Prop :=
  match e with
  | EStart u f _ => u = t /\ may_refresh f0 tr c (Some f)
  | EKStart u f _ => u = t /\ may_clear tr c (Some f)
  | _ => True
  end.

(** The step of one goroutine. *)
Lemma good_step t p (s : shared) lab p' s' ev tr c :
  step zero maxAge errAge t p s lab = Some (p', s', ev) ->
  known tr s -> good tr c p ->
  known tr s' /\
  (forall u d, EInv u d ∉ ev) /\
  Forall (right_event t tr c) ev /\
  match p' with
  | Some q => good tr c q /\ (forall u r, EReturn u r ∉ ev)
  | None => exists r, ev = [EReturn t r] /\ fits c r
  end.
Proof.
  intros Hs Hk Hg.
  destruct p, lab; cbn in Hs; try discriminate Hs;
    repeat match type of Hs with
           | context [if ?b then _ else _] => destruct b
           | context [match s_lock ?x with _ => _ end] => destruct (s_lock x)
           end; try discriminate Hs;
    try (injection Hs as <- <- <-; cbn in Hg;
         split; [exact Hk|]; split; [not_in|]; split; [repeat constructor|];
         first [ split; [|not_in]; cbn; solve [ exact Hg | by eapply may_getting
                               | apply fits_get; [done|]; eauto
                               | by subst c
                               | by destruct Hg
                               | split; [done|apply fits_get; [done|]; eauto] ]
               | eexists; split; [reflexivity|exact Hg] ]).
  all: cbn in Hg; try (destruct k as [[]|]; discriminate Hs); try (destruct f; discriminate Hs).
  - destruct f as [f|]; injection Hs as <- <- <-.
    + split; [exact Hk|]. split; [not_in|]. split; [|split; [exact Hg|not_in]].
      constructor; [by split|constructor].
    + split; [exact Hk|]. split; [not_in|]. split; [repeat constructor|]. split; [|not_in]. cbn.
      apply may_getting in Hg. split; [done|]. apply fits_get; [done|by right].
  - apply may_getting in Hg.
    destruct o; injection Hs as <- <- <-; (split; [exact Hk|]); (split; [not_in|]);
      (split; [repeat constructor|]); (split; [|not_in]); cbn; (split; [done|]); apply fits_get; eauto.
  - destruct k as [[f old]|]; injection Hs as <- <- <-;
      (split; [exact Hk|]); (split; [not_in|]).
    + split; [constructor; [done|constructor; [by split|constructor]]|]. split; [exact Hg|not_in].
    + split; [repeat constructor|]. split; [|not_in]. cbn. apply fits_clear; eauto.
  - apply may_clearing in Hg.
    destruct o; injection Hs as <- <- <-; (split; [exact Hk|]); (split; [not_in|]);
      (split; [repeat constructor|]); (split; [|not_in]); cbn; apply fits_clear; eauto.
  - subst c. destruct Hk as [(f&Hf&Hs1) Hk]. rewrite Hf in Hs. injection Hs as <- <- <-.
    split; [split; eauto|]. split; [not_in|]. split; [constructor|]. split; [exact Hs1|not_in].
  - subst c. destruct Hk as [(f&Hf&Hs1) Hk]. rewrite Hf in Hs. injection Hs as <- <- <-.
    split; [split; eauto|]. split; [not_in|]. split; [constructor|]. split; [exact Hs1|not_in].
  - subst c. destruct (s_clr s) as [[f|]|] eqn:Hf; injection Hs as <- <- <-;
      (split; [exact Hk|]); (split; [not_in|]); (split; [constructor|]); (split; [|not_in]); cbn; [|done..].
    by apply Hk.
  - injection Hs as <- <- <-. destruct Hg as [-> Hg], Hk as [_ Hk].
    split; [split; cbn; eauto|]. split; [not_in|]. split; [constructor|]. split; [done|not_in].
  - injection Hs as <- <- <-. destruct Hg as [-> Hg], Hk as [Hk _].
    split; [split; cbn; [done|]; by intros ? [= <-]|].
    split; [not_in|]. split; [constructor|]. split; [done|not_in].
Qed.

(** The invariant over executions, with what every event of the trace obeys. *)
Definition ok_event (tr : list event) (e : event) : Prop :=
  match e with
  | EInv t _ => current t tr = None
  | EStart t f _ => exists c, current t tr = Some c /\ may_refresh f0 tr c (Some f)
  | EKStart t f _ => exists c, current t tr = Some c /\ may_clear tr c (Some f)
  | EReturn t r => exists c, current t tr = Some c /\ fits c r
  | _ => True
  end.
Definition ok_trace (tr : list event) : Prop :=
  forall tr1 e tr2, tr = tr1 ++ e :: tr2 -> ok_event tr1 e.

Lemma ok_trace_app (tr ev : list event) : ok_trace tr ->
  (forall pre e post, ev = pre ++ e :: post -> ok_event (tr ++ pre) e) -> ok_trace (tr ++ ev).
Proof.
  intros H1 H2 tr1 e tr2 H. apply app_eq_inv in H as [(k&->&H)|(k&->&H)].
  - destruct k as [|x k].
    + rewrite app_nil_l in H. subst ev. rewrite app_nil_r in *. specialize (H2 [] e tr2 eq_refl).
      by rewrite app_nil_r in H2.
    + cbn in H. injection H as <- _. by eapply H1.
  - by eapply H2.
Qed.

Lemma current_quiet t (tr ev : list event) :
  (forall u d, EInv u d ∉ ev) -> (forall u r, EReturn u r ∉ ev) -> current t (tr ++ ev) = current t tr.
Proof.
  intros H1 H2. rewrite current_app. generalize (current t tr). induction ev as [|e ev IH]; intros c; [done|].
  cbn. rewrite IH; [| |].
  - destruct e; try done; exfalso; [eapply H1|eapply H2]; by left.
  - intros u d H. eapply H1. by right.
  - intros u d H. eapply H2. by right.
Qed.
Lemma current_return t u (tr : list event) r :
  current t (tr ++ [EReturn u r]) = if Nat.eqb u t then None else current t tr.
Proof. by rewrite current_app. Qed.
Lemma current_inv t u (tr : list event) c :
  current t (tr ++ [EInv u c]) = if Nat.eqb u t then Some c else current t tr.
Proof. by rewrite current_app. Qed.

Lemma known_mono tr ev s : known tr s -> known (tr ++ ev) s.
Proof.
  intros [(f&H1&H2) H3]. split.
  - exists f. split; [done|]. by apply set_refresh_mono.
  - intros g Hg. by apply set_clear_mono, H3.
Qed.

Lemma good_enter tr t c : good (tr ++ [EInv t c]) c (enter c).
Proof.
  destruct c as [f|f|[f|]| | | | | | |f|f]; cbn; try done.
  - split; [done|]. right. exists t. set_solver.
  - split; [done|]. exists t. set_solver.
Qed.

Lemma cinv_act tr cf a cf' ev :
  cinv tr cf /\ ok_trace tr -> act zero maxAge errAge cf a = Some (cf', ev) ->
  cinv (tr ++ ev) cf' /\ ok_trace (tr ++ ev).
Proof.
  intros [[Hk Ht] Ho] H. destruct a as [t c|t lab]; cbn in H.
  - pose proof (Ht t) as Htt. destruct (c_thr cf t) as [|] eqn:Et; [done|]. injection H as <- <-.
    split; [split|].
    + by apply known_mono.
    + intros u. cbn. rewrite current_inv. destruct (decide (t = u)) as [<-|Hn].
      * rewrite fn_lookup_insert, Nat.eqb_refl. exists c. split; [done|]. apply good_enter.
      * rewrite fn_lookup_insert_ne by done. apply Nat.eqb_neq in Hn. rewrite Hn. specialize (Ht u).
        destruct (c_thr cf u) as [p|]; [|done]. destruct Ht as (d&?&?). exists d.
        split; [done|by apply good_mono].
    + apply ok_trace_app; [done|]. intros pre e post H.
      destruct pre as [|x [|]]; try done. injection H as <- <-. rewrite app_nil_r. exact Htt.
  - pose proof (Ht t) as Htt. destruct (c_thr cf t) as [p|] eqn:Et; [|done].
    destruct Htt as (c&Hc&Hg).
    destruct (step zero maxAge errAge t p (c_sh cf) lab) as [[[q s'] ev']|] eqn:Es; [|done].
    injection H as <- <-.
    destruct (good_step _ _ _ _ _ _ _ _ _ Es Hk Hg) as (Hk'&Hi&Hr&Hq).
    assert (forall u, u <> t -> current u (tr ++ ev') = current u tr) as Hu.
    { intros u Hn. destruct q as [q|].
      - destruct Hq as [_ Hq]. by apply current_quiet.
      - destruct Hq as (r&->&_). rewrite current_return. rewrite (proj2 (Nat.eqb_neq t u)); congruence. }
    split; [split|].
    + by apply known_mono.
    + intros u. cbn. destruct (decide (t = u)) as [<-|Hn].
      * rewrite fn_lookup_insert. destruct q as [q|].
        -- exists c. destruct Hq as [Hq Hn]. rewrite current_quiet by done. split; [done|by apply good_mono].
        -- destruct Hq as (r&->&_). by rewrite current_return, Nat.eqb_refl.
      * rewrite fn_lookup_insert_ne by done. rewrite Hu by congruence. specialize (Ht u).
        destruct (c_thr cf u) as [q'|]; [|done]. destruct Ht as (d&?&?). exists d.
        split; [done|by apply good_mono].
    + apply ok_trace_app; [done|]. intros pre e post He.
      assert (forall u r, EReturn u r ∉ pre) as Hn.
      { intros u r Hin. destruct q as [q|].
        - destruct Hq as [_ Hq]. apply (Hq u r). rewrite He. set_solver.
        - destruct Hq as (r'&->&_). destruct pre as [|x [|]]; try done. by apply elem_of_nil in Hin. }
      assert (forall u d, EInv u d ∉ pre) as Hn'.
      { intros u d Hin. apply (Hi u d). rewrite He. set_solver. }
      assert (right_event t tr c e) as Hre.
      { rewrite Forall_forall in Hr. apply Hr. rewrite He. set_solver. }
      destruct e as [u d|u r|u f old|u o|u n|u|u|u n|u n|u|u f old]; cbn; try done.
      * exfalso. apply (Hi u d). rewrite He. set_solver.
      * destruct q as [q|].
        -- exfalso. destruct Hq as [_ Hq]. apply (Hq u r). rewrite He. set_solver.
        -- destruct Hq as (r'&->&Hf). destruct pre as [|x [|]]; try done. injection He as -> -> _.
           rewrite app_nil_r. by exists c.
      * destruct Hre as [-> Hre]. exists c. rewrite current_quiet by done.
        split; [done|by apply may_refresh_mono].
      * destruct Hre as [-> Hre]. exists c. rewrite current_quiet by done.
        split; [done|by apply may_clear_mono].
Qed.

Lemma cinv_run acts (cf : config) tr :
  run zero maxAge errAge (new_config zero f0) acts = Some (cf, tr) -> cinv tr cf /\ ok_trace tr.
Proof.
  intros H. refine (run_inv zero maxAge errAge (fun tr cf => cinv tr cf /\ ok_trace tr) _ acts [] _ _ _ _ H).
  - intros *. apply cinv_act.
  - split; [split|].
    + split; [|done]. exists f0. split; [done|by left].
    + done.
    + intros tr1 e tr2 He. by destruct tr1.
Qed.
End proofs.
