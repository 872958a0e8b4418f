(** synccache: if no new calls are made, only finitely many steps are possible, whatever the
    schedule, the clock and the callbacks.

    Six numbers, in lexicographic order, go down with every step:
    - the pointers in the map, and the calls that may still put one there (every retry of LoadOrStore
      has taken a pointer out);
    - how far the goroutines are in their calls, a Range being one piece;
    - how much of their iterations is left;
    - how far they are in the callback of a Range;
    - what is left of iterations made inside such callbacks;
    - whether the compare-and-swaps under way will succeed. *)
From Coq Require Import ZifyBool ZifyNat Wellfounded.
From Verif Require Import Base RwMapModel RwMapSpec RwMapInv RwMapFrame RwMapMoves RwMapProgress RwMapTerm
  SyncCacheModel SyncCacheSpec SyncCacheHist SyncCacheLink SyncCacheWorld SyncCacheTermSpec.

(** ** Lexicographic order *)
Definition lex {A} (R : A -> A -> Prop) (x y : nat * A) : Prop := x.1 < y.1 \/ (x.1 = y.1 /\ R x.2 y.2).
Lemma lex_wf {A} (R : A -> A -> Prop) : well_founded R -> well_founded (lex R).
Proof.
  intros Hw [n x]. revert x. induction n as [n IHn] using lt_wf_ind. intros x.
  induction (Hw x) as [x _ IHx]. constructor. intros [m y] [Hlt|[E Hr]]; cbn in *; [by apply IHn|]. subst m. by apply IHx.
Qed.
Lemma lex_lt {A} (R : A -> A -> Prop) n m x y : n < m -> lex R (n, x) (m, y).
Proof. by left. Qed.
Lemma lex_le {A} (R : A -> A -> Prop) n m x y : n <= m -> R x y -> lex R (n, x) (m, y).
Proof. intros Hle Hr. destruct (decide (n = m)) as [->|]; [by right|left; cbn; lia]. Qed.
Definition lt6 : nat * (nat * (nat * (nat * (nat * nat)))) -> _ -> Prop := lex (lex (lex (lex (lex lt)))).
Lemma lt6_wf : well_founded lt6.
Proof. do 5 apply lex_wf. apply lt_wf. Qed.

(** ** Pointers in the map *)
Section ptrs.
Context {K : Type} `{Countable K} {V : Type}.
Context (deref : nat -> V) (zero : V) (veq : V -> V -> option bool).
Implicit Types (s : shared K) (c : call K V) (p : pc K V).

Definition isptr (x : slot) : nat := match x with SPtr _ => 1 | _ => 0 end.
Definition ptrs (s : shared K) : nat := sum_list_with (fun e => isptr (s_ent s e)) (seq 0 (s_next s)).

Lemma sum_ext_in (f g : nat -> nat) l : (forall x, x ∈ l -> f x = g x) -> sum_list_with f l = sum_list_with g l.
Proof.
  induction l as [|x l IH]; intros E; [done|]. cbn. rewrite (E x) by apply elem_of_list_here. f_equal.
  apply IH. intros y Hy. apply E. by apply elem_of_list_further.
Qed.
Lemma sum_upd (f : nat -> nat) e v l : NoDup l -> e ∈ l ->
  sum_list_with (<[e := v]> f) l + f e = sum_list_with f l + v.
Proof.
  induction l as [|x l IH]; intros Hn He; [by apply elem_of_nil in He|]. apply NoDup_cons in Hn as [Hx Hn]. cbn.
  destruct (decide (x = e)) as [->|Hne].
  - rewrite fn_lookup_insert. rewrite (sum_ext_in (<[e := v]> f) f l); [lia|].
    intros y Hy. apply fn_lookup_insert_ne. intros ->. done.
  - rewrite fn_lookup_insert_ne by done. apply elem_of_cons in He as [->|He]; [done|]. specialize (IH Hn He). lia.
Qed.
Lemma ptrs_set e x s : e < s_next s -> ptrs (set_ent e x s) + isptr (s_ent s e) = ptrs s + isptr x.
Proof.
  intros He. unfold ptrs. cbn.
  rewrite (sum_ext_in (fun e0 => isptr ((<[e := x]> (s_ent s)) e0)) (<[e := isptr x]> (fun e0 => isptr (s_ent s e0)))).
  - apply (sum_upd (fun e0 => isptr (s_ent s e0))); [apply NoDup_seq|apply elem_of_seq; lia].
  - intros y _. destruct (decide (e = y)) as [->|Hne]; [by rewrite !fn_lookup_insert|by rewrite !fn_lookup_insert_ne].
Qed.
Lemma ptrs_ext s s' : s_next s' = s_next s -> (forall e, isptr (s_ent s' e) = isptr (s_ent s e)) -> ptrs s' = ptrs s.
Proof. intros E1 E2. unfold ptrs. rewrite E1. apply sum_ext_in. intros e _. apply E2. Qed.
Lemma ptrs_new q s : ptrs (new_entry q s) = S (ptrs s).
Proof.
  unfold ptrs. cbn [s_next s_ent new_entry]. rewrite seq_S, sum_list_with_app. cbn. rewrite fn_lookup_insert. cbn.
  rewrite (sum_ext_in (fun e0 => isptr ((<[s_next s := SPtr q]> (s_ent s)) e0)) (fun e => isptr (s_ent s e))); [lia|].
  intros e He. apply elem_of_seq in He. rewrite fn_lookup_insert_ne; [done|lia].
Qed.

Local Arguments ptrs _ : simpl never.

(** The result a goroutine is about to return; whether it may still store; a retry that is paid for. *)
Definition carried p : option (result V) :=
  match p with P_miss r | P_un r | P_len r _ | X_ret r => Some r | _ => None end.
Definition pend c p : nat :=
  match carried p with
  | Some (RLos _ true) => 1
  | Some _ => 0
  | None => match c with CStore _ _ | CSwap _ _ | CLoadOrStore _ _ => 1 | _ => 0 end
  end.
Definition bonus c p : nat :=
  match c with
  | CCas _ _ _ => 400
  | _ => match carried p with Some (RBool true) => 400 | _ => 0 end
  end.

Lemma carried_after c m r : carried (after c m r) = Some r.
Proof. destruct m; cbn; [|done..]. unfold finish. by case_decide. Qed.
Lemma pend_ret c r : pend c (X_ret r) <= pend c P_read \/ exists v, r = RLos v true.
Proof. destruct r as [|? []| | | |]; cbn; eauto; left; lia. Qed.

Lemma carried_finish c r : carried (finish c r) = Some r.
Proof. unfold finish. by case_decide. Qed.
Lemma pend_le c p r : carried p = Some r -> (forall v, r = RLos v true -> exists k q, c = CLoadOrStore k q) -> pend c p <= pend c P_read.
Proof.
  intros E Hr. unfold pend. rewrite E. cbn. destruct r as [|v []| | | |]; try lia.
  destruct (Hr v eq_refl) as (k & q & ->). lia.
Qed.

Lemma phi_step t c p s kof lab p' s' ev : pcinv deref veq c p s kof ->
  step deref zero veq t c p s lab = Some (Some p', s', ev) ->
  ptrs s' + pend c p' <= ptrs s + pend c p /\
  (bonus c p' <= bonus c p \/ ptrs s' + pend c p' < ptrs s + pend c p).
Proof.
  intros Hi Hs.
  assert (Hq : forall c p p' s s', ptrs s' = ptrs s -> pend c p' <= pend c p -> bonus c p' <= bonus c p ->
    ptrs s' + pend c p' <= ptrs s + pend c p /\ (bonus c p' <= bonus c p \/ ptrs s' + pend c p' < ptrs s + pend c p)).
  { intros. lia. }
  assert (Hm : forall s, ptrs (missLocked s) = ptrs s).
  { intros s0. unfold missLocked. case_decide; by apply ptrs_ext. }
  destruct p; try (destruct lab as [|kl|b]; [|discriminate Hs|discriminate Hs]); cbn [step] in Hs.
  - unfold step_read, goto in Hs. destruct c; try done; repeat (case_match || case_decide); simplify_eq; apply Hq; try done; cbn; lia.
  - destruct (s_lock s); [done|]. unfold goto in Hs. simplify_eq. by apply Hq.
  - unfold step_read2, goto in Hs. destruct c; try done; repeat (case_match || case_decide); simplify_eq; apply Hq; try done; cbn; lia.
  - unfold step_dirty, add_key, goto in Hs.
    destruct c; try done; repeat (case_match || case_decide); simplify_eq; apply Hq; try done; try (by rewrite ?Hm); cbn; lia.
  - unfold goto, dirty_store, goto in Hs.
    assert (He : s_ent s e = SExp -> forall e', isptr ((<[e := SNil]> (s_ent s)) e') = isptr (s_ent s e')).
    { intros E e'. destruct (decide (e = e')) as [->|Hne]; [by rewrite fn_lookup_insert, E|by rewrite fn_lookup_insert_ne]. }
    destruct (s_ent s e) eqn:Ee; [|destruct (call_key c)|]; repeat case_match; simplify_eq; apply Hq; try done; try (by apply ptrs_ext; [done|apply He]); cbn; try lia; repeat case_match; lia.
  - destruct Hi as (Hsw & _ & Hlt & _ & _). unfold goto in Hs.
    destruct (s_ent s e) eqn:Ee, c; try done; cbn [call_ptr] in Hs; simplify_eq; try (apply Hq; try done; cbn; lia);
      (split; [|left; cbn; lia]); cbn [pend carried];
      (match goal with |- context [set_ent e (SPtr ?q) s] => pose proof (ptrs_set e (SPtr q) s Hlt) as Hp end; rewrite Ee in Hp; cbn [isptr] in Hp; cbn; lia).
  - destruct lab as [|kl|b]; [case_decide; [|done]|destruct (todo !! kl); [|done]|done]; unfold goto in Hs; simplify_eq; by apply Hq.
  - unfold dirty_store, goto in Hs. repeat case_match; simplify_eq; apply Hq; try done; cbn; try lia; repeat case_match; lia.
  - unfold goto in Hs. destruct (s_ent s e) eqn:Ee; simplify_eq; apply Hq; try done.
    apply ptrs_ext; [done|]. intros e'. cbn. destruct (decide (e = e')) as [->|Hne]; [by rewrite fn_lookup_insert, Ee|by rewrite fn_lookup_insert_ne].
  - unfold goto in Hs. simplify_eq. by apply Hq.
  - destruct Hi as (Hst & _). unfold dirty_store, goto in Hs.
    destruct c; try done; cbn [call_key call_ptr] in Hs; destruct (s_dirty (new_entry _ s)); simplify_eq;
      (split; [|left; cbn; lia]); (match goal with |- ptrs ?x + _ <= _ => assert (ptrs x = S (ptrs s)) as -> end; [match goal with |- context [new_entry ?q s] => by rewrite <- (ptrs_new q s) end|]); cbn; lia.
  - unfold goto in Hs. simplify_eq. apply Hq; [by rewrite Hm|done..].
  - unfold goto in Hs. simplify_eq. apply Hq; [done| |]; unfold pend, bonus; by rewrite carried_finish.
  - destruct o, lab; unfold goto in Hs; simplify_eq; apply Hq; try done; destruct c; cbn; lia.
  - unfold goto in Hs. simplify_eq. by apply Hq.
  - unfold goto in Hs. simplify_eq. by apply Hq.
  - unfold goto in Hs. simplify_eq. by apply Hq.
  - unfold goto in Hs. simplify_eq. apply Hq; [done|destruct c; cbn; lia..].
  - unfold step_load, goto in Hs.
    destruct c; try done; repeat case_match; simplify_eq; apply Hq; try done; unfold pend, bonus; rewrite ?carried_after; cbn; try lia;
      unfold after_panic; repeat case_match; cbn in *; simplify_eq; lia.
  - destruct Hi as (_ & Hlt & _ & Hok). unfold goto in Hs. case_decide as Ee; simplify_eq; [|by apply Hq].
    pose proof (ptrs_set e (cas_new c) s Hlt) as Hp. unfold pend, bonus. rewrite !carried_after. cbn [carried].
    destruct c; try done; cbn in Hok, Hp |- *; try (destruct Hok as (q & Hok & _) || destruct Hok as (q & Hok)); try rewrite Hok in Hp; cbn in Hp; try lia;
      try (destruct (s_ent s e); cbn in Hp; lia).
  - unfold goto in Hs. simplify_eq. by apply Hq.
  - destruct lab as [|kl|b]; [case_decide; [|done]|destruct (todo !! kl); [|done]|done]; unfold goto in Hs; simplify_eq; apply Hq; try done; destruct c; cbn; lia.
  - unfold goto in Hs. repeat case_match; simplify_eq; by apply Hq.
  - destruct lab as [| |b]; [done..|]. destruct c, b; simplify_eq; apply Hq; try done; cbn; lia.
  - unfold goto in Hs. simplify_eq. apply Hq; try done; destruct c; cbn; lia.
  - done.
Qed.
End ptrs.

(** ** The measure *)
Section term.
Context {K : Type} `{Countable K} {V : Type}.
Context (deref : nat -> nat) (veq : V -> V -> option bool) (has_cb : bool).
Local Notation scall := (scall K V).
Local Notation spc := (spc K).
Local Notation frame := (frame K V).
Local Notation cstate := (cstate K V).
Local Notation world := (world K V).
Local Notation wact := (wact K V).
Local Notation wstep := (wstep deref veq has_cb).
Local Notation wrun := (wrun deref veq has_cb).
Local Notation ranging := (ranging has_cb).
Local Notation inner := (inner has_cb).

(** A frame: whether it may still store; how far it is, the callbacks of Range being one piece; how
    far it is in such a callback. *)
Definition fpend (c : scall) (p : spc) : nat :=
  match c, p with
  | (SStore _ _ _ | SLoadOrStore _ _ _), (Q_new | Q_put _) => 1
  | SLoadOrStore _ _ _, (Q_chk _ _ | Q_chk2 _ _ | Q_cad _ _ _ | Q_cadw _ _ _ | Q_del _ _ _) => 1
  | _, _ => 0
  end.
Definition ford (c : scall) (p : spc) : nat :=
  match p with
  | Q_new => 330
  | Q_put _ => 320
  | Q_now => 310
  | Q_get => 300
  | Q_user _ _ => 252
  | Q_back _ _ _ => 250
  | Q_wait => 200
  | Q_ret _ => 1
  | Q_chk _ _ => match c with SStore _ _ _ | SDelete _ | SCad _ _ | SClear => 300 | _ => 90 end
  | Q_chk2 _ _ => match c with SStore _ _ _ | SDelete _ | SCad _ _ | SClear => 299 | _ => 89 end
  | Q_cad _ _ _ => match c with SStore _ _ _ | SDelete _ | SCad _ _ | SClear => 290 | _ => 80 end
  | Q_cadw _ _ _ => match c with SStore _ _ _ | SDelete _ | SCad _ _ | SClear => 270 | _ => 50 end
  | Q_del _ _ _ => match c with SLoadOrStore _ _ _ => 340 | SClear => 260 | _ => 3 end
  end.
Definition f1 (c : scall) (p : spc) : nat :=
  if ranging c then
    match p with Q_ret _ => 1 | Q_new | Q_put _ | Q_get => 100 | Q_now => 101 | _ => 2 end
  else ford c p.
Definition f2 (c : scall) (p : spc) : nat :=
  if ranging c then
    match p with
    | Q_wait => 100
    | Q_chk _ _ => 90
    | Q_chk2 _ _ => 89
    | Q_cad _ _ _ => 80
    | Q_cadw _ _ _ => 60
    | Q_del _ _ _ | Q_user _ _ => 5
    | Q_back _ _ _ => 4
    | _ => 0
    end
  else 0.

Definition t1 (u : nat) (x : call K nat * pc K nat) : nat := if Nat.even u then stage x.1 x.2 + bonus x.1 x.2 else 0.
Definition t2 (u : nat) (x : call K nat * pc K nat) : nat := if Nat.even u then loop x.2 else 0.
Definition t3 (u : nat) (x : call K nat * pc K nat) : nat := if Nat.even u then 0 else stage x.1 x.2.
Definition t4 (u : nat) (x : call K nat * pc K nat) : nat := if Nat.even u then 0 else loop x.2.
Definition tp (u : nat) (x : call K nat * pc K nat) : nat := pend x.1 x.2.
Definition ts (s : shared K) (u : nat) (x : call K nat * pc K nat) : nat := stale (s_ent s) x.2.
Definition g0 (t : nat) (f : frame) : nat := fpend (f_call f) (f_pc f).
Definition g1 (t : nat) (f : frame) : nat := f1 (f_call f) (f_pc f).
Definition g2 (t : nat) (f : frame) : nat := f2 (f_call f) (f_pc f).

Definition wmsr (w : world) : nat * (nat * (nat * (nat * (nat * nat)))) :=
  let thr := c_thr (w_map w) in
  let fr := c_fr (w_cl w) in
  (ptrs (c_sh (w_map w)) + gsum tp thr + gsum g0 fr,
   (gsum t1 thr + gsum g1 fr,
    (gsum t2 thr,
     (gsum t3 thr + gsum g2 fr,
      (gsum t4 thr, gsum (ts (c_sh (w_map w))) thr))))).

Lemma f_pos c p : 0 < f1 c p.
Proof. unfold f1. destruct (ranging c); destruct p, c; cbn; lia. Qed.
Lemma even_tid t b : Nat.even (tid t b) = negb b.
Proof.
  destruct b; unfold tid; [rewrite Nat.even_succ, Nat.odd_mul|rewrite Nat.even_mul]; done.
Qed.

(** ** The steps of the cache's own code *)
Lemma loc_down s t l s' ev : cl_loc veq has_cb s (KLoc t l) = Some (s', ev) ->
  exists c now p, c_fr s !! t = Some (mk_frame c now p) /\
   (c_fr s' = delete t (c_fr s) \/
    exists now' p', c_fr s' = <[t := mk_frame c now' p']> (c_fr s) /\ fpend c p' <= fpend c p /\
      (f1 c p' < f1 c p \/ (f1 c p' = f1 c p /\ f2 c p' < f2 c p))).
Proof.
  intros Hl. cbn in Hl. destruct (c_fr s !! t) as [[c now p]|] eqn:Hf; [|done]. exists c, now, p. split; [done|].
  destruct p, l; try done.
  - right. destruct c; try done; injection Hl as <- _; eexists _, _; (split; [done|]); cbn; (split; [lia|]); left; cbn; lia.
  - right. injection Hl as <- _. eexists _, _. split; [done|]. destruct c; cbn; (split; [lia|]); left; unfold f1; cbn; repeat case_match; cbn; lia.
  - right. injection Hl as <- _. eexists _, _. split; [done|]. destruct c; cbn; (split; [lia|]); unfold f1, f2; cbn; repeat case_match; cbn; lia.
  - right. destruct (c_ent s !! e) as [[v x]|]; [|done]. injection Hl as <- _. eexists _, _. split; [done|].
    destruct c; cbn; unfold del; destruct (x <? now)%Z; unfold f1, f2; cbn; repeat case_match; cbn; try lia; try done.
  - right. destruct (c_ent s !! e) as [[v x']|]; [|done]. injection Hl as <- _. eexists _, _. split; [done|].
    destruct c, x; cbn; unfold f1, f2; cbn; repeat case_match; cbn; try lia; try done.
  - right. injection Hl as <- _. eexists _, _. split; [done|]. destruct c; cbn; (split; [lia|]); unfold f1, f2; cbn; repeat case_match; cbn; lia.
  - left. by injection Hl as <- _.
Qed.

(** ** The steps of rwmap *)
Lemma thr_down u c p s kof lab p' s' ev : pcinv deref peq c p s kof ->
  step deref 0 peq u c p s lab = Some (Some p', s', ev) ->
  ptrs s' + tp u (c, p') <= ptrs s + tp u (c, p) /\
  (ptrs s' + tp u (c, p') < ptrs s + tp u (c, p) \/
   (t1 u (c, p') <= t1 u (c, p) /\
    (t1 u (c, p') < t1 u (c, p) \/
     (t2 u (c, p') <= t2 u (c, p) /\
      (t2 u (c, p') < t2 u (c, p) \/
       (t3 u (c, p') <= t3 u (c, p) /\
        (t3 u (c, p') < t3 u (c, p) \/
         (t4 u (c, p') <= t4 u (c, p) /\
          (t4 u (c, p') < t4 u (c, p) \/
           (s_ent s' = s_ent s /\ ts s u (c, p') < ts s u (c, p))))))))))).
Proof.
  intros Hi Hs. pose proof (step_down _ _ _ _ _ _ _ _ _ _ _ Hs) as Hd.
  destruct (phi_step _ _ _ _ _ _ _ _ _ _ _ _ Hi Hs) as [Hp Hb]. split; [done|].
  unfold t1, t2, t3, t4, tp, ts. cbn [fst snd]. destruct Hb as [Hb|Hb]; [|by left]. right.
  destruct (Nat.even u); destruct Hd as [Hd|(Hd & [Hl|(Hl & He & Hst)])]; lia || (repeat (split; [lia|]; right); split; [done|lia]) || idtac.
Qed.

Lemma goes_down w tr x w' ev : good deref peq (c_sh (w_map w)) (c_thr (w_map w)) tr ->
  goes_on x -> wstep w x = Some (w', ev) -> lt6 (wmsr w') (wmsr w).
Proof.
  intros Hg Hx Hs. destruct w as [cl cf]. cbn [w_cl w_map] in *. destruct x as [a|t|a].
  - destruct a as [| t l| | |]; try done. cbn [SyncCacheModel.wstep w_cl w_map] in Hs.
    destruct (cl_loc veq has_cb cl (KLoc t l)) as [[s ev']|] eqn:Hl; [|done]. injection Hs as <- <-.
    apply loc_down in Hl as (c & now & p & Hf & [E|(now' & p' & E & Hp & Hd)]); unfold wmsr; cbn [w_cl w_map]; rewrite E.
    + rewrite !(gsum_del _ (c_fr cl) t _ Hf). apply lex_le; [lia|]. apply lex_lt. unfold g1. cbn. pose proof (f_pos c p). lia.
    + rewrite !gsum_ins, !(gsum_del _ (c_fr cl) t _ Hf). unfold g0, g1, g2. cbn [f_call f_pc].
      apply lex_le; [lia|]. destruct Hd as [Hd|[Hd Hd2]]; [apply lex_lt; lia|]. apply lex_le; [lia|].
      apply lex_le; [lia|]. apply lex_lt. lia.
  - cbn [SyncCacheModel.wstep w_cl w_map] in Hs. destruct (c_thr cf !! tid t false) as [[mc []]|] eqn:Ht; try done.
    cbn in Hs. destruct (c_fr cl !! t) as [[c now []]|] eqn:Hf; try done.
    destruct (ranging c) eqn:Hrg; [|done]. injection Hs as <- <-.
    unfold wmsr; cbn [w_cl w_map c_fr set_frame]. rewrite !gsum_ins, !(gsum_del _ (c_fr cl) t _ Hf).
    unfold g0, g1, g2. cbn [f_call f_pc]. unfold f1, f2. rewrite Hrg.
    apply lex_le; [destruct c; cbn; try lia; done|]. apply lex_le; [destruct c; cbn; lia|]. apply lex_le; [lia|].
    apply lex_lt. destruct c; cbn; lia.
  - cbn [SyncCacheModel.wstep w_cl w_map] in Hs. destruct a as [u mc|u lab].
    + cbn [act] in Hs. destruct (c_thr cf !! u) eqn:Hu; [done|]. cbn [cl_map] in Hs.
      destruct (c_fr cl !! Nat.div2 u) as [[c now p]|] eqn:Hf; [|done].
      destruct (calls_map deref has_cb c p mc) eqn:Hc; cbn [andb] in Hs; [|done].
      destruct (bool_decide _) eqn:Hb in Hs; [|done]. apply bool_decide_eq_true in Hb. injection Hs as <- <-.
      unfold wmsr; cbn [w_cl w_map c_fr c_thr c_sh set_frame]. rewrite !(gsum_fresh _ _ u _ Hu), !gsum_ins, !(gsum_del _ (c_fr cl) _ _ Hf).
      assert (He : Nat.even u = negb (inner c p)) by (rewrite Hb; apply even_tid).
      unfold g0, g1, g2, tp, t1, t2, t3, t4. cbn [f_call f_pc fst snd]. rewrite He.
      assert (Hen : enter mc = P_read /\ fpend c (inside p) + pend mc P_read <= fpend c p /\
        (if inner c p then f1 c (inside p) = f1 c p /\ f2 c (inside p) + 12 < f2 c p
         else f1 c (inside p) + 12 + bonus mc P_read < f1 c p)).
      { clear -Hc. destruct p; try done; unfold f1, f2; destruct c; try done; cbn in Hc |- *; destruct mc; try done; split_and!; try done;
          cbn; repeat case_match; cbn; lia || done. }
      destruct Hen as (-> & Hp & Hf12). cbn [stage loop ts].
      apply lex_le; [lia|]. destruct (inner c p); cbn [negb].
      * apply lex_le; [lia|]. apply lex_le; [lia|]. apply lex_lt. lia.
      * apply lex_lt. lia.
    + cbn [act] in Hs. destruct (c_thr cf !! u) as [[mc q]|] eqn:Hu; [|done].
      destruct (step deref 0 peq u mc q (c_sh cf) lab) as [[[[q'|] s'] evs]|] eqn:Hst; [| |done].
      * destruct Hg as (h & kof & m & Hcore & _). pose proof (i_pc _ _ _ _ _ _ _ Hcore _ _ _ Hu) as Hi.
        pose proof (thr_down _ _ _ _ _ _ _ _ _ Hi Hst) as Hd.
        assert (Hfr : exists cl', w' = mk_world cl' (mk_config s' (<[u := (mc, q')]> (c_thr cf))) /\
          gsum g0 (c_fr cl') <= gsum g0 (c_fr cl) /\ gsum g1 (c_fr cl') <= gsum g1 (c_fr cl) /\
          (gsum g2 (c_fr cl') = gsum g2 (c_fr cl) \/
           (t1 u (mc, q') <= t1 u (mc, q) /\ t2 u (mc, q') < t2 u (mc, q)) \/ t1 u (mc, q') < t1 u (mc, q))).
        { destruct evs as [|e evs].
          - injection Hs as <- _. exists cl. split_and!; auto.
          - assert (exists k v todo n b, q = R_call k v todo n /\ e = ECall u k v b /\ carried q' <> Some (RBool true)) as (k & v & todo & n & b & -> & -> & Hcar).
            { destruct q; try (destruct lab as [|kl|b]; [|discriminate Hst|discriminate Hst]); cbn [step] in Hst;
                unfold step_read, step_read2, step_dirty, step_load, add_key, dirty_store, goto in Hst;
                repeat (case_match || case_decide); simplify_eq; eauto 10; by eexists _, _, _, _, _. }
            cbn [cl_map] in Hs. destruct (c_fr cl !! Nat.div2 u) as [[c now []]|] eqn:Hf; try done.
            destruct (bool_decide _) eqn:Hb in Hs; [|done]. apply bool_decide_eq_true in Hb as (Hb & _). injection Hs as <- _.
            eexists. split; [done|]. cbn [c_fr set_frame]. rewrite !gsum_ins, !(gsum_del _ (c_fr cl) _ _ Hf).
            unfold g0, g1, g2. cbn [f_call f_pc]. split; [destruct c; cbn; lia|]. split; [unfold f1; case_match; cbn; lia|].
            right. assert (He : Nat.even u = true) by (rewrite Hb; apply even_tid).
            apply step_down in Hst as Hd'. unfold t1, t2. rewrite He. cbn [fst snd].
            assert (bonus mc q' <= bonus mc (R_call k v todo n)).
            { destruct mc; cbn; try lia; repeat case_match; simplify_eq; lia. }
            destruct Hd' as [Hd'|(Hd' & [Hl|(_ & _ & Hl)])]; [right; lia|left; lia|]. cbn in Hl. lia. }
        destruct Hfr as (cl' & -> & H0 & H1 & H2). unfold wmsr. cbn [w_cl w_map c_thr c_sh].
        rewrite !gsum_ins, !(gsum_del _ (c_thr cf) u _ Hu).
        destruct Hd as [Hp Hd]. destruct (decide (ptrs s' + tp u (mc, q') < ptrs (c_sh cf) + tp u (mc, q))) as [Hlt|Hge]; [apply lex_lt; lia|].
        apply lex_le; [lia|]. destruct Hd as [Hd|[Hd1 Hd]]; [lia|].
        destruct H2 as [H2|[[_ H2]|H2]]; [|apply lex_le; [lia|]; apply lex_lt; lia|apply lex_lt; lia].
        destruct Hd as [Hd|[Hd2 Hd]]; [apply lex_lt; lia|apply lex_le; [lia|]].
        destruct Hd as [Hd|[Hd3 Hd]]; [apply lex_lt; lia|apply lex_le; [lia|]].
        destruct Hd as [Hd|[Hd4 Hd]]; [apply lex_lt; lia|apply lex_le; [lia|]].
        destruct Hd as [Hd|[He Hd]]; [apply lex_lt; lia|apply lex_le; [lia|]].
        unfold ts in *. rewrite He. lia.
      * assert (exists r, q = X_ret r /\ s' = c_sh cf /\ evs = [ERet u (ret_of mc r)]) as (r & -> & -> & ->).
        { destruct q; try (destruct lab as [|kl|b]; [|discriminate Hst|discriminate Hst]); cbn [step] in Hst;
            unfold step_read, step_read2, step_dirty, step_load, add_key, dirty_store, goto in Hst;
            repeat (case_match || case_decide); simplify_eq; eauto. }
        cbn [cl_map] in Hs. destruct (c_fr cl !! Nat.div2 u) as [[c now p]|] eqn:Hf; [|done].
        destruct (bool_decide _) eqn:Hb in Hs; [|done]. apply bool_decide_eq_true in Hb.
        destruct (after_ret has_cb c p (ret_of mc r)) as [p'|] eqn:Hr; [|done]. injection Hs as <- _.
        assert (He : Nat.even u = negb (inner c p)) by (rewrite Hb; apply even_tid).
        unfold wmsr; cbn [w_cl w_map c_fr c_thr c_sh set_frame].
        rewrite !gsum_ins, !(gsum_del _ (c_fr cl) _ _ Hf), !(gsum_del _ (c_thr cf) u _ Hu).
        unfold g0, g1, g2, tp, t1, t2, t3, t4. cbn [f_call f_pc fst snd]. rewrite He. cbn [stage loop].
        assert (Hen : fpend c p' <= fpend c p + pend mc (X_ret r) /\
          (if inner c p then f1 c p' = f1 c p /\ f2 c p' < f2 c p else f1 c p' < f1 c p + 1 + bonus mc (X_ret r))).
        { assert (Hl : forall v, ret_of mc r = RLos v true -> pend mc (X_ret r) = 1).
          { intros v. destruct mc, r; cbn; try done; by intros [= <- ->]. }
          assert (Hbn : ret_of mc r = RBool true -> bonus mc (X_ret r) = 400).
          { destruct mc, r; cbn; try done; by intros [= ->]. }
          revert Hr Hl Hbn. generalize (ret_of mc r) (pend mc (X_ret r)) (bonus mc (X_ret r)). clear. intros r0 np nb Hr Hl Hbn.
          destruct p; try done; unfold f1, f2.
          - assert (Hn : inner c Q_wait = false) by done. rewrite Hn.
            destruct c; try done; destruct r0 as [[]|? []| | | |]; cbn in Hr; try done; unfold del in Hr; repeat case_match; simplify_eq;
              try specialize (Hl _ eq_refl); cbn; repeat case_match; simplify_eq; cbn; lia || done.
          - destruct r0 as [| |[]| | |]; try done; try specialize (Hbn eq_refl).
            + destruct c; cbn in Hr; repeat case_match; simplify_eq; cbn; repeat case_match; simplify_eq; cbn; lia || done.
            + destruct c; cbn in Hr; repeat case_match; simplify_eq; cbn; repeat case_match; simplify_eq; cbn; lia || (cbn in *; congruence). }
        destruct Hen as [Hp Hf12].
        apply lex_le; [lia|]. destruct (inner c p); cbn [negb].
        -- apply lex_le; [lia|]. apply lex_le; [lia|]. apply lex_lt. lia.
        -- apply lex_lt. lia.
Qed.
End term.

(** ** All calls return *)
Section returns.
Context {K : Type} `{Countable K} {V : Type}.
Context (deref : nat -> nat) (veq : V -> V -> option bool) (has_cb : bool).
Local Notation wstep := (wstep deref veq has_cb).
Local Notation wrun := (wrun deref veq has_cb).

Lemma wrun_app_ (w w1 w2 : world K V) xs ys tr1 tr2 : wrun w xs = Some (w1, tr1) -> wrun w1 ys = Some (w2, tr2) ->
  wrun w (xs ++ ys) = Some (w2, tr1 ++ tr2).
Proof.
  revert w tr1. induction xs as [|x xs IH]; intros w tr1 H1 H2; cbn in H1 |- *.
  - injection H1 as <- <-. done.
  - destruct (wstep w x) as [[w' ev]|]; [|done]. destruct (wrun w' xs) as [[w1' tr']|] eqn:E; [|done].
    injection H1 as -> <-. rewrite (IH _ _ E H2). by rewrite (assoc_L (++)).
Qed.
Lemma adjust_same xs : forall (w w1 : world K V) tr, Forall adjusts xs -> wrun w xs = Some (w1, tr) ->
  c_fr (w_cl w1) = c_fr (w_cl w) /\ w_map w1 = w_map w.
Proof.
  induction xs as [|x xs IH]; intros w w1 tr Hx Hr; cbn in Hr; [by injection Hr as <- _|].
  apply Forall_cons in Hx as [Hx Hxs]. destruct (wstep w x) as [[w' ev]|] eqn:Hs; [|done].
  destruct (wrun w' xs) as [[w2 tr2]|] eqn:Hr2; [|done]. injection Hr as -> _.
  destruct (IH _ _ _ Hxs Hr2) as [-> ->]. destruct x as [[]| |]; try done; cbn in Hs.
  - destruct (c_ent (w_cl w) !! e) as [[]|]; [|done]. by injection Hs as <- _.
  - destruct (c_ent (w_cl w) !! e) as [[]|]; [|done]. by injection Hs as <- _.
Qed.

Lemma world_returns (w : world K V) xs tr : Inhabited K -> (forall e, exists q, deref q = e) ->
  wrun w_init xs = Some (w, tr) -> all_return deref veq has_cb w.
Proof.
  intros HK Hde. revert xs tr.
  assert (Hwf : well_founded (fun w' w : world K V => lt6 (wmsr has_cb w') (wmsr has_cb w))) by apply wf_inverse_image, lt6_wf.
  induction (Hwf w) as [w _ IH]. intros xs tr Hr.
  destruct (decide (c_fr (w_cl w) = ∅)) as [He|He]; [by left|]. right.
  - apply map_choose in He as (t & f & Hf).
    assert (Hgo : forall x u, gor_of x = Some u -> is_Some (c_fr (w_cl w) !! u) -> is_Some (wstep w x) -> goes_on x).
    { intros x u Hx [f' Hu] [? Hs]. destruct x as [[]| |]; try done. cbn in Hx. injection Hx as ->. cbn in Hs. by rewrite Hu in Hs. }
    destruct (nobody_stuck deref veq has_cb w xs tr t HK Hde Hr (mk_is_Some _ _ Hf)) as [(x & Hx & Hs)|(u & x & _ & _ & Hu & Hx & Hs)];
      exists x; (split; [|done]); eapply Hgo; eauto.
  - intros ys w1 tr1 x w' ev Hys Hr1 Hx Hs. pose proof (wrun_app_ _ _ _ _ _ _ _ Hr Hr1) as Hr'.
    destruct (adjust_same _ _ _ _ Hys Hr1) as [E1 E2].
    assert (Hlt : lt6 (wmsr has_cb w') (wmsr has_cb w1)).
    { destruct (wrun_map_run _ _ _ _ _ _ _ Hr') as [mtr Hmr]. eapply goes_down; [|exact Hx|exact Hs]. by eapply run_reach. }
    assert (Em : wmsr has_cb w1 = wmsr has_cb w) by (unfold wmsr; by rewrite E1, E2). rewrite Em in Hlt.
    eapply (IH w' Hlt ((xs ++ ys) ++ [x])). eapply wrun_app_; [exact Hr'|]. cbn. rewrite Hs. done.
Qed.

(** ** While others are in a callback *)
Definition at_callback (f : frame K V) : bool :=
  match f_pc f with Q_del _ _ _ | Q_user _ _ => true | _ => false end.
Lemma at_callback_spec (w : world K V) t f : c_fr (w_cl w) !! t = Some f -> (at_callback f = true <-> in_callback w t).
Proof.
  intros Ht. destruct f as [c now p]. split.
  - intros E. exists c, now, p. split; [done|]. by destruct p.
  - intros (c' & now' & p' & E & Hp). rewrite Ht in E. injection E as -> -> ->. by destruct p'.
Qed.
Lemma lock_no_callback (w : world K V) xs tr u : Inhabited K -> wrun w_init xs = Some (w, tr) ->
  s_lock (c_sh (w_map w)) = Some u -> ~ in_callback w (Nat.div2 u).
Proof.
  intros HK Hr Hl (c & now & p & Hf & Hp).
  pose proof (wrun_winv _ _ _ _ _ _ HK Hr) as Hw.
  destruct (wrun_map_run _ _ _ _ _ _ _ Hr) as [mtr Hmr]. destruct (run_reach deref 0 peq _ _ _ HK Hmr) as (h & kof & m & Hc & Hv).
  destruct (i_lock2 _ _ _ _ _ _ _ Hc _ Hl) as [[mc q] Hu].
  assert (Hlq : locked q = true) by by apply (i_lock _ _ _ _ _ _ _ Hc _ _ _ Hu).
  destruct (tid_of u) as (t & b & ->). rewrite tid_div2 in Hf.
  destruct (link_at _ _ _ _ _ _ _ _ (wi_link _ _ _ _ _ Hw) Hu) as (c' & now' & p' & Hf' & Hb' & _).
  rewrite Hf in Hf'. injection Hf' as <- <- <-.
  assert (exists k e, in_cb p = Some (k, e)) as (k & e & Hin) by (destruct p; try done; cbn; eauto).
  destruct b; [by destruct p|]. assert (Hrg : ranging has_cb c = true) by (destruct p; try done).
  destruct (wi_cb _ _ _ _ _ Hw _ _ _ _ _ _ Hf Hrg Hin) as (mc1 & todo & n & Ha).
  rewrite Hu in Ha. injection Ha as -> ->. done.
Qed.

Lemma world_meanwhile (w : world K V) xs tr : Inhabited K -> (forall e, exists q, deref q = e) ->
  wrun w_init xs = Some (w, tr) -> return_meanwhile deref veq has_cb w.
Proof.
  intros HK Hde. revert xs tr.
  assert (Hwf : well_founded (fun w' w : world K V => lt6 (wmsr has_cb w') (wmsr has_cb w))) by apply wf_inverse_image, lt6_wf.
  induction (Hwf w) as [w _ IH]. intros xs tr Hr.
  destruct (decide (map_Forall (fun _ f => at_callback f = true) (c_fr (w_cl w)))) as [Hd|Hd].
  { left. intros t [f Hf]. eapply at_callback_spec; [exact Hf|]. by apply (Hd t). }
  apply map_not_Forall in Hd as (t & f & Hf & Hn); [|intros; apply _]. right.
  - assert (Hcb : ~ in_callback w t) by (intros Hc; apply Hn; by eapply at_callback_spec).
    assert (Hgo : forall x u, gor_of x = Some u -> is_Some (c_fr (w_cl w) !! u) -> is_Some (wstep w x) -> goes_on x).
    { intros x u Hx [f' Hu] [? Hs]. destruct x as [[]| |]; try done. cbn in Hx. injection Hx as ->. cbn in Hs. by rewrite Hu in Hs. }
    destruct (nobody_stuck deref veq has_cb w xs tr t HK Hde Hr (mk_is_Some _ _ Hf)) as [(x & Hx & Hs)|(u & x & _ & Hl & Hu & Hx & Hs)];
      exists x; (split; [eapply Hgo; eauto|split; [|done]]); rewrite Hx; intros t' [= <-]; [done|]. by eapply lock_no_callback.
  - intros ys w1 tr1 x w' ev Hys Hr1 Hx _ Hs. pose proof (wrun_app_ _ _ _ _ _ _ _ Hr Hr1) as Hr'.
    destruct (adjust_same _ _ _ _ Hys Hr1) as [E1 E2].
    assert (Hlt : lt6 (wmsr has_cb w') (wmsr has_cb w1)).
    { destruct (wrun_map_run _ _ _ _ _ _ _ Hr') as [mtr Hmr]. eapply goes_down; [|exact Hx|exact Hs]. by eapply run_reach. }
    assert (Em : wmsr has_cb w1 = wmsr has_cb w) by (unfold wmsr; by rewrite E1, E2). rewrite Em in Hlt.
    eapply (IH w' Hlt ((xs ++ ys) ++ [x])). eapply wrun_app_; [exact Hr'|]. cbn. rewrite Hs. done.
Qed.
End returns.
