(** synccache: sequential use. *)
From Coq Require Import ZifyBool ZifyNat.
From Verif Require Import Base RwMapModel RwMapSpec SyncCacheModel SyncCacheSpec SyncCacheHist SyncCacheLink SyncCacheDel SyncCacheCalls SyncCacheRange SyncCacheExp.

Lemma ms_mono a b : Z.le a b -> Z.le (ms a) (ms b).
Proof. intros. unfold ms. by apply Z.div_le_mono. Qed.

Section seq.
Context {K : Type} `{Countable K} {V : Type}.
Context (deref : nat -> nat) (veq : V -> V -> option bool) (has_cb : bool).
Local Notation scall := (scall K V).
Local Notation spc := (spc K).
Local Notation frame := (frame K V).
Local Notation sev := (sev K V).
Local Notation status := (status K nat).
Local Notation mcall := (call K nat).
Local Notation result := (result nat).
Local Notation mev := (mev K V).
Local Notation mstate := (mstate K V).
Local Notation mstep := (mstep deref veq has_cb).
Local Notation mrun := (mrun deref veq has_cb).
Local Notation mcase := (mcase deref veq has_cb).
Local Notation linked := (linked deref has_cb).
Local Notation changes := (changes deref veq has_cb).
Local Notation seen := (seen deref veq has_cb).
Local Notation removed := (removed deref veq has_cb).
Local Notation answers := (answers deref veq has_cb).

Implicit Types (h : list mev) (m : mstate) (ent : gmap nat (V * Z)) (nw : nat) (fr : gmap nat frame)
  (mp : gmap K nat) (st : gmap nat status) (c : scall) (p : spc) (mc : mcall) (r : result) (t u e : nat) (k : K).


Local Notation throughout := (throughout deref veq has_cb).
Local Notation swept := (swept deref veq has_cb).
Local Notation sp := (sp K V).
Local Notation sentry := (@sentry V).
Local Notation sp_cur := (@sp_cur K V).
Local Notation sp_call := (sp_call veq false).
Local Notation sp_step := (sp_step veq false).
Local Notation sp_run := (sp_run veq false).
Implicit Types (s : sp).
Local Ltac ev_in Hin := cbn in Hin; repeat (apply elem_of_cons in Hin as [Hin|Hin]); try (by apply elem_of_nil in Hin); try discriminate Hin.

(** ** The trace so far *)
Definition busy_ev (b : bool) (ev : sev) : bool := match ev with SInv _ _ => true | SRet _ _ => false | _ => b end.
Definition now_ev (n : Z) (ev : sev) : Z := match ev with SClock _ n' => n' | _ => n end.
Definition busy_after (b : bool) (tr : list sev) : bool := foldl busy_ev b tr.
Definition now_after (n : Z) (tr : list sev) : Z := foldl now_ev n tr.

Lemma sequential_app b n (tr1 tr2 : list sev) :
  sequential b n (tr1 ++ tr2) <-> sequential b n tr1 /\ sequential (busy_after b tr1) (now_after n tr1) tr2.
Proof.
  revert b n. induction tr1 as [|ev tr1 IH]; intros b n; [by split; [|intros []]|].
  destruct ev; cbn; rewrite ?IH; cbn; tauto.
Qed.
Lemma busy_after_app b (tr1 tr2 : list sev) : busy_after b (tr1 ++ tr2) = busy_after (busy_after b tr1) tr2.
Proof. apply foldl_app. Qed.
Lemma now_after_app b (tr1 tr2 : list sev) : now_after b (tr1 ++ tr2) = now_after (now_after b tr1) tr2.
Proof. apply foldl_app. Qed.

Lemma sp_run_snoc s cur tr s1 cur1 ev s' cur' :
  sp_run s cur tr s1 cur1 -> sp_step s1 cur1 ev s' cur' -> sp_run s cur (tr ++ [ev]) s' cur'.
Proof.
  revert s cur. induction tr as [|ev1 tr IH]; intros s cur.
  - intros [-> ->] Hs. eexists _, _. by split.
  - intros (s2 & cur2 & H1 & H2) Hs. eexists _, _. split; [done|]. by eapply IH.
Qed.

Definition call_busy (cur : sp_cur) : bool := match cur with Some _ => true | None => false end.
Lemma sp_run_busy s cur tr s' cur' : sp_run s cur tr s' cur' ->
  busy_after (call_busy cur) tr = call_busy cur'.
Proof.
  revert s cur. induction tr as [|ev tr IH]; intros s cur; [by intros [_ ->]|].
  intros (s1 & cur1 & Hs & Hr). apply IH in Hr. rewrite <- Hr. cbn. f_equal.
  destruct ev; cbn in Hs; try done; try (by destruct Hs as [_ ->]).
  - by destruct Hs as (-> & _ & ->).
  - by destruct Hs as (c & us & -> & _ & ->).
  - by destruct Hs as (us & n & -> & _ & _ & _ & _ & _ & ->).
Qed.

Lemma seen_snoc_inv h1 h2 x m k o : mrun m_init (h1 ++ h2 ++ [x]) m ->
  seen h1 (h2 ++ [x]) k o -> seen h1 h2 k o \/ map_of m !! k = o.
Proof.
  intros Hr (g1 & g2 & m1 & E & Hr1 & Hk). destruct g2 as [|y g2 _] using rev_ind.
  - right. rewrite app_nil_r in E. subst g1. by rewrite (mrun_det _ _ _ _ _ _ _ Hr Hr1).
  - left. rewrite app_assoc in E. apply app_inj_tail in E as [-> _]. by exists g1, g2, m1.
Qed.

(** ** The relation between the cache and the specification *)
Definition below ent mp s k : Prop :=
  forall e, mp !! k = Some e -> exists v x, ent !! e = Some (v, x) /\ sp_map s !! k = Some (mk_sentry e v x).
Definition base ent mp s k : Prop :=
  below ent mp s k /\
  (mp !! k = None -> forall n, sp_map s !! k = Some n -> Z.lt (n_exp n) (ms (sp_now s))).
Definition newent ent s (v : V) (d : Z) e : Prop :=
  ent !! e = Some (v, ms (Z.add (sp_now s) d)) /\ e ∉ sp_ids s.
Definition oldent ent s e : Prop := exists v x, ent !! e = Some (v, x) /\ Z.lt x (ms (sp_now s)).
Definition livent ent s e : Prop := exists v x, ent !! e = Some (v, x) /\ Z.le (ms (sp_now s)) x.
Definition taken ent s k (o : option nat) : Prop :=
  match o with
  | None => shown s k = None
  | Some e => exists v x, ent !! e = Some (v, x) /\ sp_map s !! k = Some (mk_sentry e v x)
  end.
Definition answer s k : sres := match shown s k with Some n => SEnt (n_id n) true | None => SNone end.
Definition cadres ent mp s k e (b : bool) : Prop :=
  if b then mp !! k = None /\ exists n, sp_map s !! k = Some n /\ n_id n = e
  else base ent mp s k /\ mp !! k <> Some e.
Definition matching s k (v : V) e : Prop :=
  exists n, shown s k = Some n /\ n_id n = e /\ veq v (n_val n) = Some true.

Section phase.
Context ent mp s (now : Z) p (xo : option status).
Definition loading k : Prop :=
  match p with
  | Q_get => base ent mp s k
  | Q_wait => base ent mp s k /\ match xo with Some (ADone _ (RVal o)) => mp !! k = o | _ => True end
  | Q_chk _ e => base ent mp s k /\ mp !! k = Some e
  | Q_chk2 _ e => base ent mp s k /\ mp !! k = Some e /\ now = ms (sp_now s)
  | _ => True
  end.
Definition phase c : Prop :=
  match c with
  | SStore k v d =>
      match p with
      | Q_new => base ent mp s k
      | Q_put e => base ent mp s k /\ newent ent s v d e
      | Q_wait => match xo with
                  | Some (AInv_ (CStore _ q)) => base ent mp s k /\ newent ent s v d (deref q)
                  | Some (ADone (CStore _ q) _) => mp !! k = Some (deref q) /\ newent ent s v d (deref q)
                  | _ => True
                  end
      | Q_ret _ => exists e, mp !! k = Some e /\ newent ent s v d e
      | _ => True
      end
  | SLoad k =>
      loading k /\
      match p with
      | Q_cad _ _ _ | Q_cadw _ _ _ | Q_del _ _ _ => base ent mp s k /\ shown s k = None
      | Q_ret r => base ent mp s k /\ r = answer s k
      | _ => True
      end
  | SLoadOrStore k v d =>
      match p with
      | Q_new => base ent mp s k
      | Q_put e => base ent mp s k /\ newent ent s v d e
      | Q_wait => match xo with
                  | Some (AInv_ (CLoadOrStore _ q)) => base ent mp s k /\ newent ent s v d (deref q)
                  | Some (ADone _ (RLos e true)) => base ent mp s k /\ mp !! k = Some e
                  | Some (ADone _ (RLos e false)) => mp !! k = Some e /\ newent ent s v d e /\ shown s k = None
                  | _ => True
                  end
      | Q_chk _ _ | Q_chk2 _ _ => loading k
      | Q_cad _ e _ => base ent mp s k /\ mp !! k = Some e /\ shown s k = None
      | Q_cadw _ e _ => base ent mp s k /\ shown s k = None /\
          match xo with Some (ADone _ r) => r = RBool true | _ => mp !! k = Some e end
      | Q_del _ _ _ => base ent mp s k
      | Q_ret (SEnt e true) => base ent mp s k /\ exists n, shown s k = Some n /\ n_id n = e
      | Q_ret (SEnt e false) => mp !! k = Some e /\ newent ent s v d e /\ shown s k = None
      | _ => True
      end
  | SDelete k =>
      match p with
      | Q_get => base ent mp s k
      | Q_wait => match xo with Some (ADone _ _) => mp !! k = None | _ => base ent mp s k end
      | Q_del _ _ _ | Q_ret _ => mp !! k = None
      | _ => True
      end
  | SLoadAndDelete k =>
      match p with
      | Q_get => base ent mp s k
      | Q_wait => match xo with Some (ADone _ (RVal o)) => mp !! k = None /\ taken ent s k o | _ => base ent mp s k end
      | Q_chk _ e => mp !! k = None /\ taken ent s k (Some e)
      | Q_chk2 _ e => mp !! k = None /\ taken ent s k (Some e) /\ now = ms (sp_now s)
      | Q_del _ e x => mp !! k = None /\ (if x then SNone else SEnt e true) = answer s k
      | Q_ret r => mp !! k = None /\ r = answer s k
      | _ => True
      end
  | SCad k e =>
      match p with
      | Q_cad _ _ _ => base ent mp s k
      | Q_cadw _ _ _ => match xo with Some (ADone _ (RBool b)) => cadres ent mp s k e b | _ => base ent mp s k end
      | Q_del _ _ _ => cadres ent mp s k e true
      | Q_ret (SBool b) => cadres ent mp s k e b
      | _ => True
      end
  | SCvad k v =>
      loading k /\
      match p with
      | Q_cad _ e x => base ent mp s k /\ if x then shown s k = None else mp !! k = Some e /\ matching s k v e
      | Q_cadw _ e x =>
          if x then base ent mp s k /\ shown s k = None
          else match xo with
               | Some (ADone _ r) => r = RBool true /\ mp !! k = None /\ matching s k v e
               | _ => base ent mp s k /\ mp !! k = Some e /\ matching s k v e
               end
      | Q_del _ e x => if x then base ent mp s k /\ shown s k = None else mp !! k = None /\ matching s k v e
      | Q_ret (SBool true) => mp !! k = None /\ exists e, matching s k v e
      | Q_ret (SBool false) => base ent mp s k /\
          (shown s k = None \/ exists n, shown s k = Some n /\ veq v (n_val n) = Some false)
      | Q_ret SPanic => base ent mp s k /\ exists n, shown s k = Some n /\ veq v (n_val n) = None
      | _ => True
      end
  | SRange | STrim =>
      match p with
      | Q_chk2 _ _ => now = ms (sp_now s)
      | Q_cad _ e _ | Q_cadw _ e _ => oldent ent s e
      | Q_user _ e => livent ent s e
      | _ => True
      end /\
      (c = STrim -> p = Q_now \/ now = ms (sp_now s))
  | SClear => True
  end.
End phase.

Definition owns c k : Prop :=
  match c with
  | SStore k' _ _ | SLoad k' | SLoadOrStore k' _ _ | SDelete k' | SLoadAndDelete k' | SCad k' _ | SCvad k' _ => k' = k
  | _ => False
  end.
Definition keysrel c ent mp s : Prop :=
  forall k, ~ owns c k -> match c with SClear => below ent mp s k | _ => base ent mp s k end.

Definition uselist t (tr : list sev) : list (K * nat * bool) :=
  tr ≫= (fun ev => match ev with SUse t' k e b => if decide (t' = t) then [(k, e, b)] else [] | _ => [] end).

Definition pending t c (p : spc) ent s (pend : list sev) : Prop :=
  pend = [] \/ exists k e b, p = Q_back k e b /\ c = SRange /\ pend = [SUse t k e b] /\ livent ent s e.

Definition segment h m t c s (us : list (K * nat * bool)) : Prop :=
  exists h1 h2, in_call h t c h1 h2 /\
    (sweeping c -> forall k e, map_of m !! k = Some e -> throughout (h1 ++ [inv_of t c]) h2 k e) /\
    (c = SRange -> forall k e, seen (h1 ++ [inv_of t c]) h2 k (Some e) ->
       exists v x, c_ent (m_cl m) !! e = Some (v, x) /\ sp_map s !! k = Some (mk_sentry e v x)) /\
    us = uselist t (trace h2).
Definition stopped t c (us : list (K * nat * bool)) p st : Prop :=
  false ∈ us.*2 -> c = SRange /\ ((exists mc r, st !! tid t false = Some (ADone mc r)) \/ exists y, p = Q_ret y).

Definition calling h m t c (us : list (K * nat * bool)) s (pend : list sev) now p : Prop :=
  let ent := c_ent (m_cl m) in let mp := map_of m in let st := a_st (m_map m) in
  c_fr (m_cl m) = {[t := mk_frame c now p]} /\
  keysrel c ent mp s /\ phase ent mp s now p (the_status has_cb c t p st) c /\ pending t c p ent s pend /\
  segment h m t c s (us ++ uselist t pend) /\ stopped t c us p st.

Definition sim n0 h m : Prop :=
  exists tr0 pend s cur,
    trace h = tr0 ++ pend /\ sp_run (sp_init n0) None tr0 s cur /\
    sp_now s = now_after n0 (trace h) /\ (forall e, e ∈ sp_ids s -> e < c_new (m_cl m)) /\
    (forall k n, sp_map s !! k = Some n -> n_id n < c_new (m_cl m)) /\
    match cur with
    | None => pend = [] /\ c_fr (m_cl m) = ∅ /\ forall k, base (c_ent (m_cl m)) (map_of m) s k
    | Some (t, c, us) => exists now p, calling h m t c us s pend now p
    end.

(** ** Small facts *)
Lemma shown_some s k n : shown s k = Some n <-> sp_map s !! k = Some n /\ Z.le (ms (sp_now s)) (n_exp n).
Proof.
  unfold shown. destruct (sp_map s !! k) as [n'|]; [|naive_solver]. destruct (Z.ltb_spec (n_exp n') (ms (sp_now s))).
  - split; [done|]. intros [[= ->] ?]. lia.
  - split; [intros [= ->]; done|intros [[= ->] ?]; done].
Qed.
Lemma shown_none s k : shown s k = None <-> forall n, sp_map s !! k = Some n -> Z.lt (n_exp n) (ms (sp_now s)).
Proof.
  unfold shown. destruct (sp_map s !! k) as [n'|]; [|naive_solver]. destruct (Z.ltb_spec (n_exp n') (ms (sp_now s))).
  - split; [intros _ ? [= ->]; done|done].
  - split; [done|]. intros Hn. specialize (Hn _ eq_refl). lia.
Qed.
Lemma base_none ent mp s k : base ent mp s k -> mp !! k = None -> shown s k = None.
Proof. intros [_ Hb] Hn. apply shown_none. auto. Qed.
Lemma base_hidden ent mp s k : mp !! k = None -> shown s k = None -> base ent mp s k.
Proof. intros Hn Hs. split; [intros e; congruence|]. intros _. by apply shown_none. Qed.
Lemma base_shown ent mp s k e : base ent mp s k -> mp !! k = Some e ->
  exists v x, ent !! e = Some (v, x) /\ sp_map s !! k = Some (mk_sentry e v x) /\
    (Z.lt x (ms (sp_now s)) -> shown s k = None) /\
    (Z.le (ms (sp_now s)) x -> shown s k = Some (mk_sentry e v x)).
Proof.
  intros [Hb _] He. destruct (Hb _ He) as (v & x & H1 & H2). exists v, x. split_and!; try done.
  - intros Hx. apply shown_none. rewrite H2. by intros n [= <-].
  - intros Hx. by apply shown_some.
Qed.

(** The clock moves. *)
Definition tick s (n : Z) : sp := mk_sp (sp_map s) (sp_ids s) n.
Lemma base_tick ent mp s k n : Z.le (sp_now s) n -> base ent mp s k -> base ent mp (tick s n) k.
Proof.
  intros Hn [H1 H2]. split; [done|]. intros Hk n' Hn'. cbn in Hn'. specialize (H2 Hk _ Hn'). cbn.
  pose proof (ms_mono _ _ Hn). lia.
Qed.
Lemma keysrel_tick c ent mp s n : Z.le (sp_now s) n -> keysrel c ent mp s -> keysrel c ent mp (tick s n).
Proof. intros Hn Hk k Ho. specialize (Hk k Ho). destruct c; try done; by apply base_tick. Qed.
(** A new entry. *)
Lemma below_new ent mp s k nw v x : (forall k n, sp_map s !! k = Some n -> n_id n < nw) ->
  below ent mp s k -> below (<[nw := (v, x)]> ent) mp s k.
Proof.
  intros Hlt Hb e He. destruct (Hb _ He) as (v' & x' & H1 & H2). exists v', x'. split; [|done].
  rewrite lookup_insert_ne; [done|]. specialize (Hlt _ _ H2). cbn in Hlt. lia.
Qed.
Lemma base_new ent mp s k nw v x : (forall k n, sp_map s !! k = Some n -> n_id n < nw) ->
  base ent mp s k -> base (<[nw := (v, x)]> ent) mp s k.
Proof. intros Hlt [H1 H2]. split; [by apply below_new|done]. Qed.

Lemma base_ext ent mp mp' s k : mp' !! k = mp !! k -> base ent mp s k -> base ent mp' s k.
Proof. intros E [H1 H2]. unfold base, below. rewrite E. done. Qed.
Lemma below_sub ent mp mp' s k : (forall e, mp' !! k = Some e -> mp !! k = Some e) -> below ent mp s k -> below ent mp' s k.
Proof. intros E H1 e He. by apply H1, E. Qed.

Lemma uselist_app t (tr1 tr2 : list sev) : uselist t (tr1 ++ tr2) = uselist t tr1 ++ uselist t tr2.
Proof. apply bind_app. Qed.
Lemma uselist_used t (tr : list sev) : used t tr = (uselist t tr).*1.*1.
Proof.
  induction tr as [|ev tr IH]; [done|]. change (ev :: tr) with ([ev] ++ tr). rewrite uselist_app, used_app, IH, !fmap_app. f_equal.
  destruct ev; try done. cbn. by case_decide.
Qed.
Lemma uselist_in t (tr : list sev) k e b : (k, e, b) ∈ uselist t tr <-> SUse t k e b ∈ tr.
Proof.
  unfold uselist. rewrite elem_of_list_bind. split.
  - intros (ev & Hin & Hev). destruct ev; try by apply elem_of_nil in Hin. case_decide; [|by apply elem_of_nil in Hin].
    subst. apply elem_of_list_singleton in Hin as [= -> -> ->]. done.
  - intros Hin. eexists. split; [|exact Hin]. cbn. rewrite decide_True by done. by apply elem_of_list_singleton.
Qed.

(** The stretch of the call grows. *)
Lemma segment_next h m x m' t c s s' us :
  mrun m_init (h ++ [x]) m' -> segment h m t c s us ->
  (forall c', SInv t c' ∉ x.2) -> (forall y, SRet t y ∉ x.2) ->
  (sweeping c -> forall k e, map_of m' !! k = Some e -> map_of m !! k = Some e) ->
  (c = SRange -> c_ent (m_cl m') = c_ent (m_cl m) /\ sp_map s' = sp_map s) ->
  (c = SRange -> keysrel c (c_ent (m_cl m)) (map_of m) s) ->
  segment (h ++ [x]) m' t c s' (us ++ uselist t x.2).
Proof.
  intros Hr (h1 & h2 & Hc & Hsh & Hse & Hus) H1 H2 Hsub Hsp Hk. exists h1, (h2 ++ [x]).
  assert (Hr' : mrun m_init ((h1 ++ [inv_of t c]) ++ h2 ++ [x]) m').
  { destruct Hc as [-> _]. rewrite <- !app_assoc in *. done. }
  split; [by apply in_call_snoc|]. split; [|split].
  - intros Hsw k e He o Ho. apply (seen_snoc_inv _ _ _ _ _ _ Hr') in Ho as [Ho|Ho]; [|congruence].
    apply (Hsh Hsw k e); [by apply Hsub|done].
  - intros Hcr k e Ho. destruct (Hsp Hcr) as [-> ->].
    apply (seen_snoc_inv _ _ _ _ _ _ Hr') in Ho as [Ho|Ho]; [by apply Hse|].
    apply Hsub in Ho; [|by subst]. specialize (Hk Hcr k). subst c. destruct (Hk (fun z => z)) as [Hb _]. by apply Hb.
  - rewrite trace_snoc, uselist_app. by f_equal.
Qed.

(** A call of the map takes effect. *)
Lemma seq_next_other mp mc k k' :
  match mc with
  | CStore k' _ | CLoadOrStore k' _ | CLoad k' | CLoadAndDelete k' | CCad k' _ => k' = k
  | _ => False
  end -> k' <> k -> seq_next deref peq mp mc !! k' = mp !! k'.
Proof.
  destruct mc; try done; cbn; intros -> Hne.
  - by rewrite lookup_insert_ne.
  - destruct (mp !! k); [done|]. by rewrite lookup_insert_ne.
  - by rewrite lookup_delete_ne.
  - case_match; [|done]. case_match; [|done]. by rewrite lookup_delete_ne.
Qed.

Lemma cad_cases mp k e :
  (mp !! k = Some e /\ seq_next deref peq mp (CCad k e) = delete k mp /\ seq_res deref peq mp (CCad k e) = RBool true) \/
  (mp !! k <> Some e /\ seq_next deref peq mp (CCad k e) = mp /\ seq_res deref peq mp (CCad k e) = RBool false).
Proof.
  cbn. destruct (mp !! k) as [e'|] eqn:E; [|by right]. unfold peq. case_bool_decide; subst; [by left|right]. split_and!; congruence.
Qed.

Lemma keysrel_lin ent mp s c p b mc now xo :
  mcall_ok has_cb c p b mc -> busy has_cb c p b = true -> fok has_cb c p -> atomic_call mc ->
  phase ent mp s now p xo c -> keysrel c ent mp s -> keysrel c ent (seq_next deref peq mp mc) s.
Proof.
  intros Hm Hb Hok Hat Hp Hk.
  assert (Hkey : forall k, owns c k -> match mc with
      | CStore k' _ | CLoadOrStore k' _ | CLoad k' | CLoadAndDelete k' | CCad k' _ => k' = k | _ => False end).
  { intros k Ho. unfold mcall_ok in Hm. destruct b.
    - destruct p; try done. subst mc. cbn in Hok. destruct c; cbn in *; destruct_and?; subst; done.
    - destruct c; cbn in Ho; try done; cbn in Hm; subst; destruct p; try done; cbn in Hok; destruct_and?; subst; try done;
        by destruct Hm as [? ->]. }
  assert ((exists k, owns c k) \/ c = SClear \/ c = SRange \/ c = STrim) as [[k Ho]|Hc] by (destruct c; cbn; eauto).
  - intros k' Hn. assert (Hne : k' <> k) by by intros ->.
    specialize (Hk k' Hn). pose proof (seq_next_other mp mc k k' (Hkey _ Ho) Hne) as E.
    destruct c; try done; by eapply base_ext.
  - assert (mc = CClear /\ c = SClear \/ exists k e x, p = Q_cadw k e x /\ mc = CCad k e) as [[-> ->]|(k & e & x & -> & ->)].
    { clear -Hc Hm Hat Hok. destruct b; [right; cbn in Hm; destruct p; try done; subst mc; eauto 10|].
      unfold mcall_ok in Hm. destruct (ranging has_cb c); [by subst|]. destruct p; try done.
      - left. destruct Hc as [-> |[-> | ->]]; done.
      - right. subst mc. eauto 10. }
    + intros k _ e. cbn. by rewrite lookup_empty.
    + destruct (cad_cases mp k e) as [(He & -> & _)|(_ & -> & _)]; [|done].
      intros k' Ho. specialize (Hk k' Ho). assert (Hsub : forall e', delete k mp !! k' = Some e' -> mp !! k' = Some e').
      { intros e' [_ ?]%lookup_delete_Some. done. }
      destruct Hc as [-> |Hc]; [by eapply below_sub|].
      assert (Hold : oldent ent s e) by (by destruct Hc as [-> | ->]; destruct Hp).
      assert (Hb' : base ent mp s k') by by destruct Hc as [-> | ->].
      assert (base ent (delete k mp) s k'); [|by destruct Hc as [-> | ->]].
      destruct (decide (k' = k)) as [->|Hne]; [|eapply base_ext; [|done]; by rewrite lookup_delete_ne].
      apply base_hidden; [by rewrite lookup_delete|]. destruct (base_shown _ _ _ _ _ Hb' He) as (v & y & E1 & _ & Hx & _).
      destruct Hold as (v' & y' & E2 & Hlt). apply Hx. congruence.
Qed.

Lemma phase_lin ent mp s c p b mc now xo :
  mcall_ok has_cb c p b mc -> busy has_cb c p b = true -> fok has_cb c p -> atomic_call mc -> xo = Some (AInv_ mc) ->
  phase ent mp s now p xo c ->
  phase ent (seq_next deref peq mp mc) s now p (Some (ADone mc (seq_res deref peq mp mc))) c.
Proof.
  intros Hm Hb Hok Hat -> Hp.
  assert (Hpp : p = Q_wait \/ exists k e x, p = Q_cadw k e x /\ mc = CCad k e).
  { unfold mcall_ok in Hm. destruct b; [right; destruct p; try done; subst; eauto 10|].
    destruct (ranging has_cb c) eqn:E; [by subst|]. destruct p; try done; [by left|]. right. subst. eauto 10. }
  destruct Hpp as [->|(k & e & x & -> & ->)].
  - unfold mcall_ok in Hm. destruct b; [done|]. cbn in Hok.
    destruct c; cbn [ranging] in Hm; cbn in Hm.
    + destruct Hm as [q ->]. destruct Hp as [_ ?]. cbn. by rewrite lookup_insert.
    + subst mc. destruct Hp as [[? _] _]. done.
    + destruct Hm as [q ->]. destruct Hp as [Hb' Hn]. cbn.
      destruct (mp !! k) as [e|] eqn:E; [by rewrite E|]. rewrite lookup_insert. split_and!; try done. by eapply base_none.
    + subst mc. cbn. by rewrite lookup_delete.
    + subst mc. cbn in Hp |- *. rewrite lookup_delete. split; [done|]. destruct (mp !! k) as [e|] eqn:E; [|by eapply base_none].
      destruct (base_shown _ _ _ _ _ Hp E) as (v & y & ? & ? & _). by exists v, y.
    + done.
    + subst mc. destruct Hp as [[? _] _]. done.
    + done.
    + by subst mc.
    + by subst mc.
  - destruct c; cbn in Hok; try done; destruct_and?; subst; cbn in Hp.
    + destruct Hp as (_ & Hb' & Hs). split; [done|]. split; [|done].
      destruct (cad_cases mp k e) as [(He & -> & _)|(_ & -> & _)]; [|done]. apply base_hidden; [by rewrite lookup_delete|done].
    + destruct Hp as (Hb' & Hs & He'). destruct (cad_cases mp k e) as [(He & -> & ->)|(? & _)]; [|done].
      cbn. split_and!; try done. apply base_hidden; [by rewrite lookup_delete|done].
    + cbn. destruct (cad_cases mp k e) as [(He & E1 & E2)|(Hn & E1 & E2)]; cbn in E1, E2; rewrite E1, E2; cbn.
      * rewrite lookup_delete. split; [done|]. destruct (base_shown _ _ _ _ _ Hp He) as (v & y & ? & ? & _). eauto.
      * done.
    + destruct Hp as [_ Hp]. split; [done|]. destruct x.
      * destruct Hp as [Hb' Hs]. split; [|done].
        destruct (cad_cases mp k e) as [(He & -> & _)|(_ & -> & _)]; [|done]. apply base_hidden; [by rewrite lookup_delete|done].
      * destruct Hp as (Hb' & He' & Hmt). destruct (cad_cases mp k e) as [(He & -> & ->)|(? & _)]; [|done].
        by rewrite lookup_delete.
Qed.

(** ** The places of a call *)
Lemma phase_start ent mp s c : (forall k, base ent mp s k) -> phase ent mp s 0 (start c) None c /\ keysrel c ent mp s.
Proof.
  intros Hb. split.
  - destruct c; cbn; try done; try (by split); split; try done; auto.
  - intros k _. destruct c; try apply Hb.
Qed.

Lemma phase_new ent mp s c xo now n k v d nw :
  c = SStore k v d \/ c = SLoadOrStore k v d -> (forall e, e ∈ sp_ids s -> e < nw) ->
  (forall k n, sp_map s !! k = Some n -> n_id n < nw) -> Z.le (sp_now s) n ->
  keysrel c ent mp s -> phase ent mp s now Q_new xo c ->
  keysrel c (<[nw := (v, ms (Z.add n d))]> ent) mp (tick s n) /\
  forall xo', phase (<[nw := (v, ms (Z.add n d))]> ent) mp (tick s n) now (Q_put nw) xo' c.
Proof.
  intros Hc Hi Hlt Hn Hk Hp.
  assert (Hb : forall k, base ent mp s k -> base (<[nw := (v, ms (Z.add n d))]> ent) mp (tick s n) k).
  { intros k' Hb. apply base_new; [done|]. by apply base_tick. }
  assert (Hnew : newent (<[nw := (v, ms (Z.add n d))]> ent) (tick s n) v d nw).
  { split; [by rewrite lookup_insert|]. intros Hin%Hi. lia. }
  split.
  - intros k' Ho. specialize (Hk k' Ho). destruct Hc as [-> | ->]; by apply Hb.
  - intros xo'. destruct Hc as [-> | ->]; cbn in Hp |- *; auto.
Qed.

Lemma phase_chk ent mp s c xo now n k e :
  fok has_cb c (Q_chk k e) -> c <> STrim -> Z.le (sp_now s) n -> phase ent mp s now (Q_chk k e) xo c ->
  forall xo', phase ent mp (tick s n) (ms n) (Q_chk2 k e) xo' c.
Proof.
  intros Hok Hc Hn Hp xo'. destruct c; cbn in Hok; try done; cbn in Hp |- *.
  - destruct Hp as [[? ?] _]. split_and!; try done. by apply base_tick.
  - destruct Hp as [? ?]. split_and!; try done. by apply base_tick.
  - destruct Hp as (? & ?). done.
  - destruct Hp as [[? ?] _]. split_and!; try done. by apply base_tick.
Qed.

Lemma phase_chk2 ent mp s c xo now k e v x :
  fok has_cb c (Q_chk2 k e) -> ent !! e = Some (v, x) -> phase ent mp s now (Q_chk2 k e) xo c ->
  forall xo', phase ent mp s now (after_chk veq has_cb c k e v (Z.ltb x now)) xo' c.
Proof.
  intros Hok He Hp xo'. destruct c; cbn in Hok; try done; try subst k0.
  - cbn in Hp. destruct Hp as [(Hb & Hm & ->) _]. cbn. destruct (base_shown _ _ _ _ _ Hb Hm) as (v' & x' & E & _ & H1 & H2).
    rewrite He in E. injection E as <- <-. destruct (Z.ltb_spec x (ms (sp_now s))); cbn.
    + auto.
    + unfold answer. rewrite H2 by done. done.
  - cbn in Hp. destruct Hp as (Hb & Hm & ->). cbn. destruct (base_shown _ _ _ _ _ Hb Hm) as (v' & x' & E & _ & H1 & H2).
    rewrite He in E. injection E as <- <-. destruct (Z.ltb_spec x (ms (sp_now s))); cbn.
    + auto.
    + rewrite H2 by done. eauto.
  - cbn in Hp. destruct Hp as (Hm & (v' & x' & E & Hs) & ->). rewrite He in E. injection E as <- <-.
    assert (Ha : (if Z.ltb x (ms (sp_now s)) then SNone else SEnt e true) = answer s k).
    { unfold answer, shown. rewrite Hs. cbn. by case_match. }
    cbn. unfold del. destruct has_cb; cbn; done.
  - cbn in Hp. destruct Hp as [(Hb & Hm & ->) _]. cbn. destruct (base_shown _ _ _ _ _ Hb Hm) as (v' & x' & E & _ & H1 & H2).
    rewrite He in E. injection E as <- <-. destruct (Z.ltb_spec x (ms (sp_now s))); cbn; [auto|].
    rewrite H2 by done. destruct (veq v0 v) as [[]|] eqn:Ev; cbn.
    + split_and!; try done. exists (mk_sentry e v x). split_and!; try done. auto.
    + split_and!; try done. right. eauto.
    + eauto.
  - cbn in Hp. destruct Hp as [-> _]. cbn. destruct (Z.ltb_spec x (ms (sp_now s))); cbn; (split; [|done]); exists v, x; done.
  - cbn in Hp. destruct Hp as [-> Ht]. cbn. destruct (Z.ltb_spec x (ms (sp_now s))); cbn; (split; [|auto]); try done. exists v, x; done.
Qed.

Lemma phase_del ent mp s c xo now k e (x : bool) :
  fok has_cb c (Q_del k e x) -> phase ent mp s now (Q_del k e x) xo c ->
  forall xo', phase ent mp s now (after_del c k e x) xo' c.
Proof.
  intros [_ Hok] Hp xo'. destruct c; cbn in Hok; try done; destruct_and?; subst; cbn in Hp |- *; try done.
  - destruct Hp as (_ & ? & Hs). unfold answer. by rewrite Hs.
  - destruct Hp as [_ Hp]. split; [done|]. destruct x; destruct Hp; [|eauto]. auto.
  - split; [done|]. intros E. right. destruct Hp as [_ Hp]. by destruct (Hp E).
Qed.

Lemma phase_call ent mp s c xo now p mc :
  fok has_cb c p -> calls_map deref has_cb c p mc = true -> phase ent mp s now p xo c ->
  phase ent mp s now (inside p) (Some (AInv_ mc)) c.
Proof.
  intros Hok Hc Hp. destruct p, c; cbn in Hok; try done; cbn in Hc; destruct mc; try done;
    try apply bool_decide_eq_true in Hc; destruct_and?; subst; cbn in Hp |- *; try tauto.
  all: destruct_and?; try (split_and!; done).
  - split; [done|]. intros E. right. by destruct (H1 E).
  - case_match; tauto.
  - split; [done|]. intros E. right. by destruct (H1 E).
Qed.

Lemma phase_done ent mp s c now p mc r p' :
  fok has_cb c p -> mcall_ok has_cb c p (inner has_cb c p) mc -> st_ok deref (ADone mc r) mc -> after_ret has_cb c p r = Some p' ->
  phase ent mp s now p (Some (ADone mc r)) c -> (c = STrim -> p <> Q_now) ->
  forall xo', phase ent mp s now p' xo' c.
Proof.
  intros Hok Hm Hst Ha Hp Hnow xo'.
  destruct p; try done; cbn in Ha.
  - destruct c; try done; cbn in Hm.
    + destruct r; try done. injection Ha as <-. destruct Hm as [q ->]. cbn in Hp |- *. eauto.
    + destruct r as [o| | | | |]; try done. injection Ha as <-. cbn in Hp |- *. destruct Hp as [[Hb Ho] _]. destruct o; cbn; [done|].
      split; [done|]. split; [done|]. unfold answer. by rewrite (base_none _ _ _ _ Hb Ho).
    + destruct r; try done. injection Ha as <-. cbn in Hp. destruct loaded; cbn; done.
    + destruct r as [o| | | | |]; try done. injection Ha as <-. subst mc. cbn in Hp. destruct o; cbn; [|done].
      unfold del. destruct has_cb; done.
    + destruct r as [o| | | | |]; try done. injection Ha as <-. cbn in Hp. destruct Hp as [? Hp]. destruct o; cbn; [done|].
      split; [done|]. unfold answer. cbn in Hp. by rewrite Hp.
    + destruct r as [o| | | | |]; try done. injection Ha as <-. cbn in Hp |- *. destruct Hp as [[Hb Ho] _]. destruct o; cbn; [done|].
      split; [done|]. split; [done|]. left. by eapply base_none.
    + destruct r; try done. injection Ha as <-. done.
    + destruct r; try done. injection Ha as <-. cbn in Hp |- *. split; [done|]. intros E. right. destruct Hp as [_ Hp]. by destruct (Hp E).
  - destruct r; try (by destruct c).
    assert (Ha' : p' = if b then (if has_cb then Q_del k e x else after_cad c k e x true) else after_cad c k e x false).
    { destruct c; by injection Ha as <-. }
    clear Ha. cbn in Hok. destruct c; cbn in Hok; try done; destruct_and?; subst; cbn in Hp; cbn [after_cad].
    + destruct Hp as (_ & Hb & Hs). assert (SNone = answer s k) by (unfold answer; by rewrite Hs).
      destruct b; [destruct has_cb|]; done.
    + destruct Hp as (Hb & Hs & [= ->]). destruct has_cb; done.
    + destruct b; [destruct has_cb|]; done.
    + destruct Hp as [_ Hp]. destruct x.
      * destruct Hp. destruct b; [destruct has_cb|]; cbn; auto.
      * destruct Hp as ([= ->] & ? & ?). destruct has_cb; cbn; eauto.
    + destruct b; [destruct has_cb|]; cbn; split; try done; discriminate.
    + destruct Hp as [_ Hp]. assert (now = ms (sp_now s)) by by destruct Hp.
      destruct b; [destruct has_cb|]; cbn; split; auto; done.
Qed.

Lemma base_put ent mp s k v d e : mp !! k = Some e -> newent ent s v d e -> base ent mp (sp_put k v d e s) k.
Proof.
  intros He [Hn _]. split; [|congruence]. intros e' He'. assert (e' = e) as -> by congruence.
  eexists _, _. split; [done|]. cbn. by rewrite lookup_insert.
Qed.
Lemma base_put_ne ent mp s k v d e k' : k' <> k -> base ent mp s k' -> base ent mp (sp_put k v d e s) k'.
Proof.
  intros Hne [H1 H2]. unfold base, below. cbn. rewrite lookup_insert_ne by done. done.
Qed.
Lemma base_del ent mp s k : mp !! k = None -> base ent mp (sp_del k s) k.
Proof. intros He. split; [congruence|]. intros _ n. cbn. by rewrite lookup_delete. Qed.
Lemma base_del_ne ent mp s k k' : k' <> k -> base ent mp s k' -> base ent mp (sp_del k s) k'.
Proof.
  intros Hne [H1 H2]. unfold base, below. cbn. rewrite lookup_delete_ne by done. done.
Qed.

(** A call returns. *)
Lemma phase_ret ent mp s c xo now (y : sres) us :
  fok has_cb c (Q_ret y) -> phase ent mp s now (Q_ret y) xo c -> keysrel c ent mp s ->
  (c = SClear -> mp = ∅) ->
  (c = SRange -> (forall k e, (k, e, false) ∉ us) -> forall k n, shown s k = Some n -> (k, n_id n, true) ∈ us) ->
  exists s', sp_call c us s y s' /\ (forall k, base ent mp s' k) /\ sp_now s' = sp_now s /\
    (forall e, e ∈ sp_ids s' -> e ∈ sp_ids s \/ e ∈ dom ent) /\
    (forall k n, sp_map s' !! k = Some n -> sp_map s !! k = Some n \/ n_id n ∈ dom ent).
Proof.
  intros Hok Hp Hk Hcl Hrg.
  assert (Hput : forall k v d e, (forall k', ~ owns c k' <-> k' <> k) -> c <> SClear -> mp !! k = Some e -> newent ent s v d e ->
    (forall k', base ent mp (sp_put k v d e s) k') /\ sp_now (sp_put k v d e s) = sp_now s /\
    (forall e', e' ∈ sp_ids (sp_put k v d e s) -> e' ∈ sp_ids s \/ e' ∈ dom ent) /\
    (forall k' n, sp_map (sp_put k v d e s) !! k' = Some n -> sp_map s !! k' = Some n \/ n_id n ∈ dom ent)).
  { intros k v d e Ho Hc He Hn. assert (Hd : e ∈ dom ent) by (apply elem_of_dom; destruct Hn as [-> _]; eauto). split_and!.
    - intros k'. destruct (decide (k' = k)) as [->|Hne]; [by apply base_put|]. apply base_put_ne; [done|].
      pose proof (Hk k' (proj2 (Ho k') Hne)) as Hb. by destruct c.
    - done.
    - cbn. intros e'. rewrite elem_of_union, elem_of_singleton. intros [->|?]; auto.
    - cbn. intros k' n. rewrite lookup_insert_Some. intros [[-> <-]|[_ ?]]; auto. }
  assert (Hdel : forall k, (forall k', ~ owns c k' <-> k' <> k) -> c <> SClear -> mp !! k = None ->
    (forall k', base ent mp (sp_del k s) k') /\ sp_now (sp_del k s) = sp_now s /\
    (forall e', e' ∈ sp_ids (sp_del k s) -> e' ∈ sp_ids s \/ e' ∈ dom ent) /\
    (forall k' n, sp_map (sp_del k s) !! k' = Some n -> sp_map s !! k' = Some n \/ n_id n ∈ dom ent)).
  { intros k Ho Hc He. split_and!; try done.
    - intros k'. destruct (decide (k' = k)) as [->|Hne]; [by apply base_del|]. apply base_del_ne; [done|].
      pose proof (Hk k' (proj2 (Ho k') Hne)) as Hb. by destruct c.
    - auto.
    - cbn. intros k' n. rewrite lookup_delete_Some. intros [_ ?]; auto. }
  assert (Hsame : forall k, (forall k', ~ owns c k' <-> k' <> k) -> c <> SClear -> base ent mp s k ->
    (forall k', base ent mp s k') /\ sp_now s = sp_now s /\
    (forall e', e' ∈ sp_ids s -> e' ∈ sp_ids s \/ e' ∈ dom ent) /\
    (forall k' n, sp_map s !! k' = Some n -> sp_map s !! k' = Some n \/ n_id n ∈ dom ent)).
  { intros k Ho Hc He. split_and!; try done; [|auto..].
    intros k'. destruct (decide (k' = k)) as [->|Hne]; [done|].
    pose proof (Hk k' (proj2 (Ho k') Hne)) as Hb. by destruct c. }
  assert (Hown : forall k k', ~ k = k' <-> k' <> k) by (split; intros ? ->; done).
  destruct c; cbn in Hok, Hp; cbn [sp_call].
  - destruct y; try done. destruct Hp as (e & He & Hn). eexists. split; [split; [done|]; exists e; split; [apply Hn|done]|].
    by apply Hput; [apply (Hown k)|discriminate|..].
  - destruct Hp as (_ & Hb & ->). exists s. split; [done|]. by apply (Hsame k); [apply (Hown k)|discriminate|].
  - destruct y as [| |e b| |]; try done. destruct b.
    + destruct Hp as (Hb & n & Hs & <-). exists s. rewrite Hs. split; [done|]. by apply (Hsame k); [apply (Hown k)|discriminate|].
    + destruct Hp as (He & Hn & Hs). rewrite Hs. eexists. split; [exists e; split; [apply Hn|done]|]. by apply Hput; [apply (Hown k)|discriminate|..].
  - destruct y; try done. eexists. split; [done|]. by apply Hdel; [apply (Hown k)|discriminate|].
  - destruct Hp as [? ->]. eexists. split; [done|]. by apply Hdel; [apply (Hown k)|discriminate|].
  - destruct y as [| | |b|]; try done. destruct b.
    + destruct Hp as (He & n & Hn & Hid). exists (sp_del k s). split; [|by apply Hdel; [apply (Hown k)|discriminate|]].
      destruct (shown s k) as [n'|] eqn:E; [|right; split_and!; eauto]. apply shown_some in E as [E _].
      rewrite decide_True by congruence. done.
    + destruct Hp as (Hb & Hne). exists s. split; [|by apply (Hsame k); [apply (Hown k)|discriminate|]].
      destruct (shown s k) as [n'|] eqn:E; [|by left]. apply shown_some in E as [E Hle].
      rewrite decide_False; [done|]. intros <-. apply Hne. destruct Hb as [Hb1 Hb2].
      destruct (mp !! k) as [e|] eqn:Em; [|specialize (Hb2 eq_refl _ E); lia].
      destruct (Hb1 _ Em) as (v & x & _ & E'). rewrite E in E'. injection E' as ->. done.
  - destruct Hp as [_ Hp]. destruct y as [| | |b|]; try done.
    + destruct b.
      * destruct Hp as (He & e & n & Hs & _ & Hv). rewrite Hs, Hv. eexists. split; [done|]. by apply Hdel; [apply (Hown k)|discriminate|].
      * destruct Hp as (Hb & Hs). exists s. split; [|by apply (Hsame k); [apply (Hown k)|discriminate|]].
        destruct Hs as [->|(n & -> & ->)]; done.
    + destruct Hp as (Hb & n & -> & ->). exists s. split; [done|]. by apply (Hsame k); [apply (Hown k)|discriminate|].
  - destruct y; try done. exists (sp_clear s). rewrite Hcl by done. split_and!; try done.
    + auto.
  - destruct y; try done. exists s. split; [split; [done|]; split; [done|]; by apply Hrg|]. split_and!; try done; auto.
  - destruct y; try done. exists s. split; [done|]. split_and!; try done; auto.
Qed.

(** ** One step *)
Lemma sp_run_app s cur tr1 s1 cur1 tr2 s' cur' :
  sp_run s cur tr1 s1 cur1 -> sp_run s1 cur1 tr2 s' cur' -> sp_run s cur (tr1 ++ tr2) s' cur'.
Proof.
  revert s cur. induction tr1 as [|ev tr IH]; intros s cur; [by intros [-> ->]|].
  intros (s2 & cur2 & H1 & H2) Hs. eexists _, _. split; [done|]. by eapply IH.
Qed.

Lemma calling_next h m (x : mev) m' t c us s s' us' now p now' p' pend pend' :
  mrun m_init (h ++ [x]) m' -> calling h m t c us s pend now p ->
  c_fr (m_cl m') = <[t := mk_frame c now' p']> (c_fr (m_cl m)) ->
  (forall c', SInv t c' ∉ x.2) -> (forall y, SRet t y ∉ x.2) ->
  keysrel c (c_ent (m_cl m')) (map_of m') s' ->
  phase (c_ent (m_cl m')) (map_of m') s' now' p' (the_status has_cb c t p' (a_st (m_map m'))) c ->
  pending t c p' (c_ent (m_cl m')) s' pend' ->
  (sweeping c -> forall k e, map_of m' !! k = Some e -> map_of m !! k = Some e) ->
  (c = SRange -> c_ent (m_cl m') = c_ent (m_cl m) /\ sp_map s' = sp_map s) ->
  us' ++ uselist t pend' = (us ++ uselist t pend) ++ uselist t x.2 ->
  stopped t c us' p' (a_st (m_map m')) ->
  calling (h ++ [x]) m' t c us' s' pend' now' p'.
Proof.
  intros Hr (Hf & Hk & _ & _ & Hseg & _) Hf' H1 H2 Hk' Hp' Hpd Hsub Hent Hus Hst.
  split_and!; try done.
  - rewrite Hf', Hf. by rewrite insert_singleton.
  - rewrite Hus. eapply segment_next; try done.
Qed.

(** The goroutine inside a call is the one of the specification. *)
Lemma active n0 h m t c now p :
  sim n0 h m -> c_fr (m_cl m) !! t = Some (mk_frame c now p) ->
  exists tr0 pend s us,
    trace h = tr0 ++ pend /\ sp_run (sp_init n0) None tr0 s (Some (t, c, us)) /\
    sp_now s = now_after n0 (trace h) /\ (forall e, e ∈ sp_ids s -> e < c_new (m_cl m)) /\
    (forall k n, sp_map s !! k = Some n -> n_id n < c_new (m_cl m)) /\ calling h m t c us s pend now p.
Proof.
  intros (tr0 & pend & s & cur & H1 & H2 & H3 & H4 & H5 & H6) Hf.
  destruct cur as [[[t' c'] us]|].
  - destruct H6 as (now' & p' & Hc). pose proof Hc as (Hf' & _). rewrite Hf' in Hf. apply lookup_singleton_Some in Hf as [-> [= -> -> ->]].
    by exists tr0, pend, s, us.
  - destruct H6 as (_ & Hf' & _). by rewrite Hf', lookup_empty in Hf.
Qed.
Lemma pending_nil t c p ent s pend : pending t c p ent s pend -> (forall k e b, p <> Q_back k e b) -> pend = [].
Proof. intros [->|(k & e & b & -> & _)] Hn; [done|]. by destruct (Hn k e b). Qed.
Lemma pending_move t c p p' ent s pend : pending t c p ent s pend -> (forall k e b, p <> Q_back k e b) -> pending t c p' ent s pend.
Proof. intros Hp Hn. left. by eapply pending_nil. Qed.

Lemma stopped_go t c us p st p' st' : stopped t c us p st -> (forall y, p <> Q_ret y) ->
  (forall mc r, c = SRange -> st !! tid t false = Some (ADone mc r) -> (exists mc' r', st' !! tid t false = Some (ADone mc' r')) \/ exists y, p' = Q_ret y) ->
  stopped t c us p' st'.
Proof.
  intros Hs Hp Hst Hin. destruct (Hs Hin) as [Hc [(mc & r & E)|(y & E)]]; [|by destruct (Hp y)]. split; [done|]. by eapply Hst.
Qed.

Local Ltac tidy :=
  try (by (intros ? Hin; ev_in Hin)); try (by left); try (by rewrite !app_nil_r);
  try (eapply stopped_go; [done|done|]; by eauto).

Lemma sim_step n0 h m x m' :
  mrun m_init h m -> linked m -> mrun m_init (h ++ [x]) m' -> mcase m x m' ->
  sequential false n0 (trace (h ++ [x])) -> sim n0 h m -> sim n0 (h ++ [x]) m'.
Proof.
  intros Hr [Hl Hok] Hr' Hm Hseq Hsim. rewrite trace_snoc in Hseq. apply sequential_app in Hseq as [_ Hseq].
  pose proof (fun t c now p => active n0 h m t c now p Hsim) as Hact.
  (* A step whose observations the specification takes at once. *)
  assert (Hgo : forall t c us s s' us' tr0 now p,
    trace h = tr0 -> sp_run (sp_init n0) None tr0 s (Some (t, c, us)) -> sp_now s = now_after n0 (trace h) ->
    sp_run s (Some (t, c, us)) x.2 s' (Some (t, c, us')) ->
    sp_now s' = now_after (sp_now s) x.2 ->
    (forall e, e ∈ sp_ids s' -> e < c_new (m_cl m')) ->
    (forall k n, sp_map s' !! k = Some n -> n_id n < c_new (m_cl m')) ->
    calling (h ++ [x]) m' t c us' s' [] now p -> sim n0 (h ++ [x]) m').
  { intros t c us s s' us' tr0 now p Etr Hrun Hnow Hrun' Hnow' Hids Hkeys Hcall.
    exists (tr0 ++ x.2), [], s', (Some (t, c, us')). rewrite trace_snoc, app_nil_r, now_after_app, <- Hnow, Etr.
    split_and!; try done; [by eapply sp_run_app|]. eauto. }
  (* A step without observations. *)
  assert (Hsil : forall t c us s tr0 pend now p,
    trace h = tr0 ++ pend -> sp_run (sp_init n0) None tr0 s (Some (t, c, us)) -> sp_now s = now_after n0 (trace h) ->
    x.2 = [] -> c_new (m_cl m') = c_new (m_cl m) ->
    (forall e, e ∈ sp_ids s -> e < c_new (m_cl m)) -> (forall k n, sp_map s !! k = Some n -> n_id n < c_new (m_cl m)) ->
    calling (h ++ [x]) m' t c us s pend now p -> sim n0 (h ++ [x]) m').
  { intros t c us s tr0 pend now p Etr Hrun Hnow Hx Hn Hids Hkeys Hcall.
    exists tr0, pend, s, (Some (t, c, us)). rewrite trace_snoc, Hx, app_nil_r, Hn. split_and!; eauto. }
  (* A step of a Range. *)
  assert (Hiter : forall t b (y y' : status), a_st (m_map m) !! tid t b = Some y ->
    match y with AInv_ mc => range_call mc | AIter _ _ _ _ => True | ADone _ _ => False end ->
    x.2 = [] -> m_cl m' = m_cl m -> map_of m' = map_of m -> a_st (m_map m') = <[tid t b := y']> (a_st (m_map m)) ->
    sim n0 (h ++ [x]) m').
  { intros t b y y' Hy Hyy Hx Hcl Hmp Hst'.
    destruct (link_call_of _ _ _ _ _ _ _ Hl Hy) as (c & now & p & mc & Hf & Hbs & Hmc & Hst).
    assert (mc = CRange) as ->.
    { destruct y; try done; [|by destruct Hst]. cbn in Hst. subst. by eapply mcall_not_slow. }
    assert (b = false /\ ranging has_cb c = true) as [-> Hrg].
    { clear -Hmc. unfold mcall_ok in Hmc. destruct b; [by destruct p|]. split; [done|]. destruct (ranging has_cb c); [done|].
      destruct p, c; try done; by destruct Hmc. }
    destruct (Hact _ _ _ _ Hf) as (tr0 & pend & s & us & Etr & Hrun & Hnow & Hids & Hkeys & Hcall).
    pose proof Hcall as (_ & Hk & Hp & Hpd & _ & Hstp).
    eapply (Hsil t c us s); try done; [by rewrite Hcl|].
    eapply calling_next; try done; rewrite ?Hcl, ?Hmp, ?Hx; try done; tidy.
    - by rewrite insert_id.
    - destruct c; done.
    - intros Hin. destruct (Hstp Hin) as [? [(? & ? & E)|?]]; [|by split; [|right]]. rewrite Hy in E. by injection E as ->. }
  destruct Hm.
  - (* M_inv *)
    destruct Hsim as (tr0 & pend & s & cur & Etr & Hrun & Hnow & Hids & Hkeys & Hcur).
    destruct Hseq as [Hbusy _]. destruct cur as [[[t' c'] us]|].
    { exfalso. apply sp_run_busy in Hrun. destruct Hcur as (? & ? & _ & _ & _ & Hpd & _).
      rewrite Etr, busy_after_app in Hbusy. change (call_busy None) with false in Hrun. rewrite Hrun in Hbusy.
      by destruct Hpd as [->|(? & ? & ? & _ & _ & -> & _)]. }
    destruct Hcur as (-> & Hf & Hb). cbn in Hf, Hb. subst fr.
    exists (tr0 ++ [SInv t c]), [], s, (Some (t, c, [])).
    rewrite trace_snoc, Etr, !app_nil_r. split_and!; try done.
    + eapply sp_run_app; [done|]. eexists _, _. split; [done|]. done.
    + rewrite now_after_app. cbn. by rewrite Hnow, Etr, app_nil_r.
    + destruct (phase_start _ _ _ c Hb) as [Hp Hk].
      exists 0%Z, (start c). split_and!; try done.
      * cbn. assert (Hst : forall b, st !! tid t b = None).
        { intros b. specialize (Hl t b). cbn in Hl. destruct (st !! tid t b); [|done]. by destruct Hl as (? & ? & ? & ? & ? & _). }
        replace (the_status has_cb c t (start c) st) with (@None status); [done|]. symmetry. unfold the_status. destruct (start c); apply Hst.
      * by left.
      * exists h, []. split; [|split; [|split]].
        -- split; [done|]. split; intros ? Hin; by apply elem_of_nil in Hin.
        -- intros _ k e He o (g1 & g2 & m1 & E & Hr1 & <-). symmetry in E. apply app_eq_nil in E as [-> ->].
           rewrite app_nil_r in Hr1. rewrite (mrun_det _ _ _ _ _ _ _ Hr1 Hr'). done.
        -- intros _ k e (g1 & g2 & m1 & E & Hr1 & Hk1). symmetry in E. apply app_eq_nil in E as [-> ->].
           rewrite app_nil_r in Hr1. rewrite (mrun_det _ _ _ _ _ _ _ Hr1 Hr') in Hk1. by apply Hb.
        -- done.
      * intros Hin. by apply elem_of_nil in Hin.
  - (* M_new *)
    destruct (Hact _ _ _ _ H0) as (tr0 & pend & s & us & Etr & Hrun & Hnow & Hids & Hkeys & Hcall).
    pose proof Hcall as (_ & Hk & Hp & Hpd & _ & Hstp). apply pending_nil in Hpd as ->; [|done]. rewrite app_nil_r in Etr.
    destruct Hseq as [Hle _]. rewrite <- Hnow in Hle.
    destruct (phase_new _ _ _ _ _ _ n k v d _ H1 Hids Hkeys Hle Hk Hp) as [Hk' Hp'].
    eapply (Hgo t c us s (tick s n) us); try done.
    + eexists _, _. split; [done|]. eexists _, _. done.
    + intros e He. apply Hids in He. cbn in He |- *. lia.
    + intros k' n' Hn'. apply Hkeys in Hn'. cbn in Hn' |- *. lia.
    + eapply calling_next; try done; tidy.
      * by destruct H1 as [-> | ->].
  - (* M_now *)
    destruct (Hact _ _ _ _ H0) as (tr0 & pend & s & us & Etr & Hrun & Hnow & Hids & Hkeys & Hcall).
    pose proof Hcall as (_ & Hk & Hp & Hpd & _ & Hstp). apply pending_nil in Hpd as ->; [|done]. rewrite app_nil_r in Etr.
    destruct Hseq as [Hle _]. rewrite <- Hnow in Hle.
    pose proof (Hok _ _ _ _ H0) as Hc. cbn in Hc. subst c.
    eapply (Hgo t STrim us s (tick s n) us); try done.
    + eexists _, _. done.
    + eapply calling_next; try done; tidy.
      * by apply keysrel_tick.
      * cbn. split; [done|]. auto.
  - (* M_chk *)
    destruct (Hact _ _ _ _ H0) as (tr0 & pend & s & us & Etr & Hrun & Hnow & Hids & Hkeys & Hcall).
    pose proof Hcall as (_ & Hk & Hp & Hpd & _ & Hstp). apply pending_nil in Hpd as ->; [|done]. rewrite app_nil_r in Etr.
    destruct Hseq as [Hle _]. rewrite <- Hnow in Hle.
    pose proof (Hok _ _ _ _ H0) as Hc.
    assert (c <> STrim).
    { intros ->. destruct (mrun_swept_up _ _ _ _ _ Hr _ _ _ _ H0 I) as (? & ? & _ & _ & _ & _ & _ & Hpl). by cbn in Hpl. }
    eapply (Hgo t c us s (tick s n) us); try done.
    + eexists _, _. done.
    + eapply calling_next; try done; tidy.
      * by apply keysrel_tick.
      * by eapply phase_chk.
  - (* M_chk2 *)
    destruct (Hact _ _ _ _ H0) as (tr0 & pend & s & us & Etr & Hrun & Hnow & Hids & Hkeys & Hcall).
    pose proof Hcall as (_ & Hk & Hp & Hpd & _ & Hstp). apply pending_nil in Hpd as ->; [|done]. rewrite app_nil_r in Etr.
    pose proof (Hok _ _ _ _ H0) as Hc.
    eapply (Hgo t c us s s us); try done.
    + eexists _, _. done.
    + eapply calling_next; try done; tidy.
      * by eapply phase_chk2.
  - (* M_del *)
    destruct (Hact _ _ _ _ H0) as (tr0 & pend & s & us & Etr & Hrun & Hnow & Hids & Hkeys & Hcall).
    pose proof Hcall as (_ & Hk & Hp & Hpd & _ & Hstp). apply pending_nil in Hpd as ->; [|done]. rewrite app_nil_r in Etr.
    pose proof (Hok _ _ _ _ H0) as Hc.
    eapply (Hgo t c us s s us); try done.
    + eexists _, _. done.
    + eapply calling_next; try done; tidy.
      * by eapply phase_del.
  - (* M_user *)
    destruct (Hact _ _ _ _ H0) as (tr0 & pend & s & us & Etr & Hrun & Hnow & Hids & Hkeys & Hcall).
    pose proof Hcall as (_ & Hk & Hp & Hpd & _ & Hstp). apply pending_nil in Hpd as ->; [|done]. rewrite app_nil_r in Etr.
    pose proof (Hok _ _ _ _ H0) as Hc. cbn in Hc. subst c. destruct Hp as [Hlive _].
    exists tr0, [SUse t k e b], s, (Some (t, SRange, us)). rewrite trace_snoc, now_after_app. split_and!; try done.
    + by rewrite Etr.
    + exists now, (Q_back k e b). eapply calling_next; try done; tidy.
      * right. eauto 10.
  - (* M_ret *)
    rename r into y.
    destruct (Hact _ _ _ _ H0) as (tr0 & pend & s & us & Etr & Hrun & Hnow & Hids & Hkeys & Hcall).
    destruct Hcall as (Hf & Hk & Hp & Hpd & Hseg & Hstp). apply pending_nil in Hpd as ->; [|done]. rewrite app_nil_r in Etr.
    pose proof (Hok _ _ _ _ H0) as Hc. cbn in Hf. destruct Hseg as (h1 & h2 & Hic & Hsh & _ & Hus). rewrite app_nil_r in Hus.
    assert (Hsw : sweeping c -> swept (h1 ++ [inv_of t c]) h2 t c).
    { intros Hc'. destruct (mrun_swept_up _ _ _ _ _ Hr _ _ _ _ H0 Hc') as (h1' & h2' & Hic' & _ & _ & _ & _ & Hpl).
      destruct (in_call_inj _ _ _ _ _ _ _ _ Hic Hic') as (-> & -> & _). done. }
    cbn in Hsh. edestruct (phase_ret ent mp s c _ now y us Hc Hp Hk) as (s' & Hcl & Hb & Hn' & Hi' & Hk').
    { intros ->. apply map_eq. intros k. rewrite lookup_empty. destruct (mp !! k) as [e|] eqn:E; [|done].
      exfalso. destruct (Hsw I) as [Hno _]. apply (Hno k e). by apply (Hsh I). }
    { intros -> Hno k n Hs. destruct (Hsw I) as (_ & _ & _ & [(k' & e' & Hin)|Hall]).
      { exfalso. apply uselist_in in Hin. rewrite <- Hus in Hin. by apply (Hno k' e'). }
      apply shown_some in Hs as [Hs Hle]. destruct (Hk k (fun z => z)) as [Hb1 Hb2]. cbn in Hb1, Hb2.
      destruct (mp !! k) as [e|] eqn:E; [|specialize (Hb2 eq_refl _ Hs); lia].
      destruct (Hb1 _ E) as (v & x & _ & E'). rewrite Hs in E'. injection E' as ->. cbn.
      rewrite Hus. apply uselist_in. apply Hall. by apply (Hsh I). }
    assert (Hlt : forall e, e ∈ dom ent -> e < nw).
    { intros e He. destruct (mrun_made _ _ _ _ _ Hr) as (_ & Hd & _). apply elem_of_dom in He as [[v x] He]. by eapply Hd. }
    exists (tr0 ++ [SRet t y]), [], s', None. rewrite trace_snoc, Etr, !app_nil_r. split_and!; try done.
    + eapply sp_run_app; [done|]. eexists _, _. split; [|done]. eexists _, _. split; [done|]. done.
    + rewrite now_after_app. cbn. rewrite Hn', Hnow, Etr. done.
    + intros e [He|He]%Hi'; [by apply Hids|by apply Hlt].
    + intros k n [He|He]%Hk'; [by eapply Hkeys|by apply Hlt].
    + cbn. rewrite Hf. apply delete_singleton.
  - (* M_beg *)
    destruct (Hact _ _ _ _ H0) as (tr0 & pend & s & us & Etr & Hrun & Hnow & Hids & Hkeys & Hcall).
    pose proof Hcall as (_ & Hk & Hp & Hpd & _ & Hstp). apply pending_nil in Hpd as ->; [|done].
    eapply (Hsil t c us s); try done. eapply calling_next; try done; tidy.
    + destruct c; try done; cbn in Hp |- *.
      * destruct Hp as [_ Hp]. assert (now = ms (sp_now s)) by (by destruct (Hp eq_refl)). auto.
  - (* M_set *) done.
  - (* M_add *) done.
  - (* M_call *)
    destruct (Hact _ _ _ _ H0) as (tr0 & pend & s & us & Etr & Hrun & Hnow & Hids & Hkeys & Hcall).
    pose proof Hcall as (_ & Hk & Hp & Hpd & _ & Hstp). apply pending_nil in Hpd as ->; [|by intros ? ? ? ->; destruct c].
    pose proof (Hok _ _ _ _ H0) as Hc.
    eapply (Hsil t c us s); try done. eapply calling_next; try done; tidy.
    + cbn. replace (the_status has_cb c t (inside p) _) with (Some (AInv_ mc : status)); [by eapply phase_call|].
      destruct p; try done; cbn; by rewrite lookup_insert.
    + eapply stopped_go; [done|by intros ? ->; destruct c|]. cbn. intros mc' r _ E.
      left. exists mc', r. rewrite lookup_insert_ne; [done|]. intros E'. rewrite E' in H2. congruence.
  - (* M_done *)
    destruct (Hact _ _ _ _ H0) as (tr0 & pend & s & us & Etr & Hrun & Hnow & Hids & Hkeys & Hcall).
    pose proof Hcall as (_ & Hk & Hp & Hpd & _ & Hstp). apply pending_nil in Hpd as ->; [|by intros ? ? ? ->; destruct c].
    pose proof (Hok _ _ _ _ H0) as Hc.
    destruct (link_call_of _ _ _ _ _ _ _ Hl H1) as (c1 & now1 & p1 & mc1 & Hf1 & Hbs & Hmc & Hst).
    cbn in Hf1. rewrite H0 in Hf1. injection Hf1 as <- <- <-.
    assert (mc1 = mc) as -> by by destruct Hst as [? _].
    assert (Hpp : p = Q_wait \/ exists k e x, p = Q_cadw k e x) by (destruct p; eauto; by destruct c).
    assert (Hts : the_status has_cb c t p st = Some (ADone mc r)) by by destruct Hpp as [-> |(? & ? & ? & ->)].
    eapply (Hsil t c us s); try done. eapply calling_next; try done; tidy.
    + cbn in Hp. rewrite Hts in Hp. eapply phase_done; try done. by destruct Hpp as [-> |(? & ? & ? & ->)].
    + eapply stopped_go; [done|by intros ? ->; destruct Hpp as [? |(? & ? & ? & ?)]|].
      cbn. intros mc' r' -> E. destruct Hpp as [-> |(k & e & x & ->)].
      * right. destruct r; try done. injection H2 as <-. eauto.
      * left. assert (Hne : tid t true <> tid t false) by (apply tid_ne; auto). cbn. rewrite lookup_delete_ne by exact Hne. eauto.
  - (* M_back *)
    destruct (Hact _ _ _ _ H0) as (tr0 & pend & s & us & Etr & Hrun & Hnow & Hids & Hkeys & Hcall).
    pose proof Hcall as (_ & Hk & Hp & Hpd & Hseg & Hstp). pose proof (Hok _ _ _ _ H0) as [Hrg _].
    assert (Hphase : forall xo, phase ent mp s now Q_wait xo c).
    { intros xo. destruct c; try done; cbn in Hp |- *.
      - destruct Hp as [_ Hp]. assert (now = ms (sp_now s)) by (by destruct (Hp eq_refl)). auto. }
    assert (Hno : false ∉ us.*2).
    { intros Hin. destruct (Hstp Hin) as [_ [(x & x0 & E)|(? & ?)]]; [|done]. change (st !! tid t false = Some (ADone x x0)) in E; congruence. }
    destruct Hpd as [->|(k1 & e1 & b1 & [= <- <- <-] & -> & -> & Hlive)].
    + eapply (Hsil t c us s); try done. eapply calling_next; try done; tidy.
    + destruct Hseg as (h1 & h2 & Hic & _ & Hse & Hus).
      destruct (mrun_swept_up _ _ _ _ _ Hr _ _ _ _ H0 I) as (h1' & h2' & Hic' & _ & _ & Huse & Hsta & _).
      destruct (in_call_inj _ _ _ _ _ _ _ _ Hic Hic') as (-> & -> & _).
      change (a_st (m_map (M ent nw fr mp st))) with st in Huse, Hsta. rewrite H1 in Huse, Hsta.
      destruct Hsta as [Hvis _]. destruct (Hvis _ _ H2) as [_ Hseen].
      destruct (Hse eq_refl _ _ Hseen) as (v & x & He & Hs). destruct Hlive as (v' & x' & He' & Hle). cbn in He, He'.
      rewrite He in He'. injection He' as <- <-.
      assert (Hkn : k ∉ us.*1.*1).
      { destruct Huse as [(l & Hnd & Hl' & Hu) _]. rewrite uselist_used, <- Hus, !fmap_app in Hu. cbn in Hu.
        rewrite decide_True in Hu by done. cbn in Hu. intros Hin. destruct Hu as [<-|(k' & ? & ? & _ & Hu)].
        - destruct (Hl' k) as [_ ?]; [|congruence]. apply elem_of_app. auto.
        - apply app_inj_tail in Hu as [<- _]. destruct (Hl' k Hin). congruence. }
      exists (tr0 ++ [SUse t k e b]), [], s, (Some (t, SRange, us ++ [(k, e, b)])).
      rewrite trace_snoc, Etr, !app_nil_r. rewrite Etr in Hnow. split_and!; try done.
      * eapply sp_run_app; [done|]. eexists _, _. split; [|done].
        exists us, (mk_sentry e v x). split_and!; try done. by apply shown_some.
      * exists now, Q_wait. eapply calling_next; try done; tidy.
        -- cbn. by rewrite decide_True, !app_nil_r.
        -- intros Hin. rewrite fmap_app, elem_of_app in Hin. destruct Hin as [Hin%Hno|Hin]; [done|].
           apply elem_of_list_singleton in Hin. cbn in Hin. subst b. split; [done|]. left. cbn. rewrite lookup_insert. eauto.
  - (* M_lin *)
    destruct (tid_of u) as (t & b & ->).
    destruct (link_call_of _ _ _ _ _ _ _ Hl H0) as (c & now & p & mc1 & Hf & Hbs & Hmc & Hst). cbn in Hst. subst mc1.
    destruct (Hact _ _ _ _ Hf) as (tr0 & pend & s & us & Etr & Hrun & Hnow & Hids & Hkeys & Hcall).
    pose proof Hcall as (_ & Hk & Hp & Hpd & _ & Hstp). pose proof (Hok _ _ _ _ Hf) as Hc.
    assert (Hb : b = inner has_cb c p /\ (p = Q_wait \/ exists k e x, p = Q_cadw k e x)).
    { clear -Hbs Hmc H1. destruct b; cbn in Hbs.
      - destruct p; try done. cbn. eauto 10.
      - unfold mcall_ok in Hmc. destruct (ranging has_cb c) eqn:E; [by subst|]. destruct p; try done; cbn; eauto 10. }
    destruct Hb as [Hb Hpp].
    assert (Hts : the_status has_cb c t p st = Some (AInv_ mc)) by by (rewrite Hb in H0; destruct Hpp as [-> |(? & ? & ? & ->)]).
    cbn in Hp, Hk. rewrite Hts in Hp.
    eapply (Hsil t c us s); try done. eapply calling_next; try done; tidy.
    + cbn. by rewrite insert_id.
    + cbn. by eapply keysrel_lin.
    + cbn. replace (the_status has_cb c t p _) with (Some (ADone mc (seq_res deref peq mp mc))); [eapply (phase_lin _ _ _ _ _ b _ _ (Some (AInv_ mc))); try done|].
      rewrite Hb. unfold the_status. destruct Hpp as [-> |(? & ? & ? & ->)]; symmetry; exact (lookup_insert _ _ _).
    + intros Hsw k e. cbn. assert (mc = CClear \/ exists k e, mc = CCad k e) as [-> |(k' & e' & ->)].
      { clear -Hmc Hsw H1. unfold mcall_ok in Hmc. destruct b; [destruct p; try done; eauto|].
        destruct (ranging has_cb c); [by subst|]. destruct p; try done; [|eauto]. destruct c; try done. auto. }
      * unfold map_of. cbn. by rewrite lookup_empty.
      * unfold map_of. cbn [m_map a_map M]. destruct (cad_cases mp k' e') as [(_ & -> & _)|(_ & -> & _)]; [|done]. by intros [_ ?]%lookup_delete_Some.
    + eapply stopped_go; [done|by destruct Hpp as [-> |(? & ? & ? & ->)]|]. cbn. intros mc' r' -> E. left.
      destruct (decide (b = false)) as [->|Hne]; [rewrite lookup_insert; eauto|].
      assert (Hne' : tid t b <> tid t false) by (apply tid_ne; auto). rewrite lookup_insert_ne by exact Hne'. eauto.
  - (* M_snap *)
    destruct (tid_of u) as (t & b & ->). eapply Hiter; done.
  - (* M_see *)
    destruct (tid_of u) as (t & b & ->). eapply Hiter; done.
  - (* M_end *)
    destruct (tid_of u) as (t & b & ->). eapply Hiter; done.
Qed.

Lemma mrun_sim n0 h m : mrun m_init h m -> sequential false n0 (trace h) -> sim n0 h m.
Proof.
  revert h m. apply (mrun_cases _ _ _ (fun h m => sequential false n0 (trace h) -> sim n0 h m)).
  - intros _. exists [], [], (sp_init n0), None. split_and!; try done.
  - intros h m x m' Hr Hl Hr' IH Hm Hseq. eapply sim_step; try done. apply IH.
    rewrite trace_snoc in Hseq. by apply sequential_app in Hseq as [? _].
Qed.

(** A sequential use that has ended is one the specification allows, and what is left is shown. *)
Lemma mrun_sequential n0 h m : mrun m_init h m -> sequential false n0 (trace h) -> c_fr (m_cl m) = ∅ ->
  exists s, sp_run (sp_init n0) None (trace h) s None /\ forall k, base (c_ent (m_cl m)) (map_of m) s k.
Proof.
  intros Hr Hseq Hf. destruct (mrun_sim _ _ _ Hr Hseq) as (tr0 & pend & s & cur & Etr & Hrun & _ & _ & _ & Hcur).
  destruct cur as [[[t c] us]|].
  - destruct Hcur as (now & p & Hf' & _). rewrite Hf in Hf'. symmetry in Hf'. by apply map_non_empty_singleton in Hf'.
  - destruct Hcur as (-> & _ & Hb). exists s. rewrite Etr, app_nil_r. done.
Qed.

End seq.
