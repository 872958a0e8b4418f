(** rwmap: Len counts the keys. *)
From Coq Require Import ZifyBool ZifyNat.
From Verif Require Import Base RwMapModel RwMapSpec RwMapInv RwMapFrame RwMapMoves RwMapMoves2 RwMapStep RwMapStep2 RwMapStep3 RwMapLin.

Section len.
Context {K : Type} `{Countable K} {V : Type}.
Context (deref : nat -> V) (zero : V) (veq : V -> V -> option bool).
Local Notation call := (call K V).
Local Notation result := (result V).
Local Notation pc := (pc K V).
Local Notation shared := (shared K).
Local Notation hitem := (hitem (K := K) (V := V)).
Local Notation astate := (astate K V).
Local Notation item := (item K V).
Local Notation astep := (astep deref veq).
Local Notation arun := (arun deref veq).
Local Notation hrun := (hrun deref veq).
Local Notation hstep := (hstep deref veq).
Local Notation core := (core deref veq).
Local Notation good := (good deref veq).
Local Notation slot_val := (slot_val deref).
Local Notation pcinv := (pcinv deref veq).
Local Notation seq_res := (seq_res deref veq).
Local Notation seq_next := (seq_next deref veq).
Local Notation op_ok := (op_ok deref veq).

Implicit Types (s : shared) (thr : gmap nat (call * pc)) (h : list hitem) (c : call) (p : pc).

Local Notation event := (event K V).
Local Notation config := (config K V).
Local Notation run := (run deref zero veq).
Local Notation act := (act deref zero veq).
Local Notation step := (step deref zero veq).
Local Notation contents := (contents deref).

Lemma run_app (cf : config) (a1 a2 : list (action K V)) :
  run cf (a1 ++ a2) =
  match run cf a1 with
  | None => None
  | Some (cf1, e1) => match run cf1 a2 with
                      | None => None
                      | Some (cf2, e2) => Some (cf2, e1 ++ e2)
                      end
  end.
Proof.
  revert cf. induction a1 as [|a a1 IH]; intros cf.
  { cbn. destruct (run cf a2) as [[c e]|]; done. }
  cbn. destruct (act cf a) as [[c1 e1]|]; [|done].
  rewrite IH. destruct (run c1 a1) as [[c2 e2]|]; [|done].
  destruct (run c2 a2) as [[c3 e3]|]; [|done]. by rewrite (assoc_L (++)).
Qed.

Lemma run_snoc (acts : list (action K V)) (cf cf1 cf2 : config) tr a ev :
  run cf acts = Some (cf1, tr) -> act cf1 a = Some (cf2, ev) -> run cf (acts ++ [a]) = Some (cf2, tr ++ ev).
Proof. intros Hr Ha. rewrite run_app, Hr. cbn. rewrite Ha. by rewrite app_nil_r. Qed.

(** ** Sums over the goroutines *)
Definition tot {A} (f : A -> Z) (m : gmap nat A) : Z := map_fold (fun _ x z => (f x + z)%Z) 0%Z m.

Lemma tot_empty {A} (f : A -> Z) : tot f ∅ = 0%Z.
Proof. apply map_fold_empty. Qed.
Lemma tot_insert {A} (f : A -> Z) m i x : m !! i = None -> tot f (<[i := x]> m) = (f x + tot f m)%Z.
Proof. intros Hi. unfold tot. rewrite map_fold_insert_L; [done| |done]. intros. lia. Qed.
Lemma tot_delete {A} (f : A -> Z) m i x : m !! i = Some x -> tot f (delete i m) = (tot f m - f x)%Z.
Proof.
  intros Hi. assert (tot f m = (f x + tot f (delete i m))%Z); [|lia].
  rewrite <- (tot_insert f (delete i m) i x) by apply lookup_delete. by rewrite insert_delete.
Qed.
Lemma tot_update {A} (f : A -> Z) m i x y :
  m !! i = Some y -> tot f (<[i := x]> m) = (tot f m - f y + f x)%Z.
Proof.
  intros Hi. rewrite <- insert_delete_insert, tot_insert by apply lookup_delete. rewrite (tot_delete _ _ _ _ Hi). lia.
Qed.

(** ** How a trace changes the number of keys *)
(** Store and Delete do not tell whether they added or removed the key; they are treated as Swap
    and LoadAndDelete further below. *)
Definition plain (c : call) : Prop := match c with CStore _ _ | CDelete _ => False | _ => True end.
Definition pend_ev (pend : gmap nat call) (e : event) : gmap nat call :=
  match e with EInv t c => <[t := c]> pend | ERet t _ => delete t pend | ECall _ _ _ _ => pend end.
Definition cnt_ev (pend : gmap nat call) (n : Z) (e : event) : Z :=
  match e with
  | ERet t r => match pend !! t with Some CClear => 0 | Some c => n + delta c r | None => n end
  | _ => n
  end.
Definition ok_ev (pend : gmap nat call) (e : event) : Prop :=
  match e with
  | EInv t c => (c = CClear -> pend = ∅) /\ (forall u, pend !! u <> Some CClear)
  | _ => True
  end.
Fixpoint pend_tr (pend : gmap nat call) (tr : list event) : gmap nat call :=
  match tr with [] => pend | e :: tr => pend_tr (pend_ev pend e) tr end.
Fixpoint cnt_tr (pend : gmap nat call) (n : Z) (tr : list event) : Z :=
  match tr with [] => n | e :: tr => cnt_tr (pend_ev pend e) (cnt_ev pend n e) tr end.

Lemma clear_alone_cons pend e tr : clear_alone pend (e :: tr) <-> ok_ev pend e /\ clear_alone (pend_ev pend e) tr.
Proof. destruct e; cbn; tauto. Qed.
Lemma clear_alone_app pend tr1 tr2 :
  clear_alone pend (tr1 ++ tr2) <-> clear_alone pend tr1 /\ clear_alone (pend_tr pend tr1) tr2.
Proof.
  revert pend. induction tr1 as [|e tr1 IH]; intros pend; [cbn; tauto|].
  cbn [app pend_tr]. rewrite !clear_alone_cons, IH. tauto.
Qed.
Lemma pend_app pend tr1 tr2 : pend_tr pend (tr1 ++ tr2) = pend_tr (pend_tr pend tr1) tr2.
Proof. revert pend. induction tr1 as [|e tr1 IH]; intros pend; [done|]. apply IH. Qed.
Lemma cnt_app pend n tr1 tr2 :
  cnt_tr pend n (tr1 ++ tr2) = cnt_tr (pend_tr pend tr1) (cnt_tr pend n tr1) tr2.
Proof. revert pend n. induction tr1 as [|e tr1 IH]; intros pend n; [done|]. apply IH. Qed.

Definition plain_ev (e : event) : Prop := match e with EInv _ c => plain c | _ => True end.

(** ** The atomic object *)
Definition scall (x : status K V) : call :=
  match x with AInv_ c | ADone c _ | AIter c _ _ _ => c end.
Definition sgrow (x : status K V) : Z :=
  match x with ADone c r => delta c r | _ => 0 end.

Lemma seq_grow (m : gmap K V) c :
  plain c -> atomic_call c -> c <> CClear ->
  (Z.of_nat (size (seq_next m c)) = Z.of_nat (size m) + delta c (seq_res m c))%Z.
Proof.
  intros Hp Ha Hcl. destruct c; cbn in *; try done.
  - lia.
  - rewrite map_size_insert. destruct (m !! k); cbn; lia.
  - destruct (m !! k) eqn:E; cbn; [lia|]. rewrite map_size_insert, E. cbn. lia.
  - rewrite map_size_delete. destruct (m !! k) eqn:E; cbn; [|lia].
    assert (size m <> 0) by (intros E2; apply map_size_empty_inv in E2; by subst m). lia.
  - destruct (m !! k) eqn:E; cbn; [|lia]. destruct (veq v old) as [[]|]; cbn; [|lia|lia].
    rewrite map_size_insert, E. cbn. lia.
  - destruct (m !! k) eqn:E; cbn; [|lia]. destruct (veq v old) as [[]|]; cbn; [|lia|lia].
    rewrite map_size_delete, E. cbn.
    assert (size m <> 0) by (intros E2; apply map_size_empty_inv in E2; by subst m). lia.
Qed.

Definition ainv (a : astate) (pend : gmap nat call) (n : Z) : Prop :=
  (forall t, pend !! t = scall <$> a_st a !! t) /\
  (forall t c, pend !! t = Some c -> plain c) /\
  (((forall t, pend !! t <> Some CClear) /\ Z.of_nat (size (a_map a)) = (n + tot sgrow (a_st a))%Z) \/
   (exists t x, a_st a = {[t := x]} /\ (x = AInv_ CClear \/ (x = ADone CClear RUnit /\ a_map a = ∅)))).

Lemma ainv_update a pend n t x y m' :
  ainv a pend n -> a_st a !! t = Some x -> scall y = scall x -> scall x <> CClear ->
  (Z.of_nat (size m') - sgrow y = Z.of_nat (size (a_map a)) - sgrow x)%Z ->
  ainv (mk_astate m' (<[t := y]> (a_st a))) pend n.
Proof.
  intros (Hp & Hpl & Hx) Ht Hs Hcl Hg. split; [|split; [done|]].
  - intros u. cbn. rewrite Hp. destruct (decide (u = t)) as [->|Hne]; [|by rewrite lookup_insert_ne].
    rewrite lookup_insert, Ht. cbn. by rewrite Hs.
  - destruct Hx as [[Hnc Hsz]|(u & z & Est & Hz)].
    + left. split; [done|]. cbn. rewrite (tot_update _ _ _ _ _ Ht). lia.
    + exfalso. rewrite Est in Ht. apply lookup_singleton_Some in Ht as [-> ->].
      destruct Hz as [-> |[-> _]]; done.
Qed.

Lemma ainv_step a pend n (i : item) a' :
  ainv a pend n -> astep a i a' -> Forall (ok_ev pend) (visible i) -> Forall plain_ev (visible i) ->
  ainv a' (pend_tr pend (visible i)) (cnt_tr pend n (visible i)).
Proof.
  intros Hi Hs Hok Hpl. pose proof Hi as (Hp & Hpp & Hx).
  destruct i as [t c|t r|t k v b|t|t ks|t k|t]; cbn in Hs, Hok, Hpl; cbn [visible pend_tr cnt_tr pend_ev cnt_ev].
  - destruct Hs as [Hn ->]. rewrite Forall_singleton in Hok. destruct Hok as [Hcl Hno]. rewrite Forall_singleton in Hpl.
    assert (Hpend : forall u, <[t := c]> pend !! u = scall <$> <[t := AInv_ c]> (a_st a) !! u).
    { intros u. destruct (decide (u = t)) as [->|Hne]; [by rewrite !lookup_insert|].
      rewrite !lookup_insert_ne by done. apply Hp. }
    split; [done|]. split.
    { intros u c' [[<- <-]|[_ ?]]%lookup_insert_Some; [exact Hpl|eauto]. }
    assert (Hnc : c = CClear \/ c <> CClear) by (destruct c; by (right + left)).
    destruct Hnc as [->|Hnc].
    + right. exists t, (AInv_ CClear). cbn. split; [|by left].
      assert (a_st a = ∅) as ->; [|done]. apply map_empty. intros u.
      specialize (Hp u). rewrite (Hcl eq_refl), lookup_empty in Hp. by destruct (a_st a !! u).
    + destruct Hx as [[_ Hsz]|(u & x & Est & Hz)].
      * left. split.
        -- intros u [[_ ?]|[_ Hu]]%lookup_insert_Some; [done|]. by apply (Hno u).
        -- cbn. rewrite tot_insert by done. cbn. lia.
      * exfalso. apply (Hno u). rewrite Hp, Est, lookup_singleton. cbn. by destruct Hz as [-> |[-> _]].
  - destruct Hs as [-> Hs].
    assert (Hpend : forall u, delete t pend !! u = scall <$> delete t (a_st a) !! u).
    { intros u. destruct (decide (u = t)) as [->|Hne]; [by rewrite !lookup_delete|].
      rewrite !lookup_delete_ne by done. apply Hp. }
    split; [done|]. split.
    { intros u c' [_ ?]%lookup_delete_Some. eauto. }
    left. split.
    { intros u [Hne Hu]%lookup_delete_Some. rewrite Hp in Hu.
      destruct Hx as [[Hnc _]|(w & x & Est & Hz)]; [apply (Hnc u); by rewrite Hp|].
      rewrite Est in Hu, Hs. destruct (decide (u = w)) as [->|Hne2]; [|by rewrite lookup_singleton_ne in Hu].
      rewrite lookup_singleton_ne in Hs by done. naive_solver. }
    cbn. rewrite (Hp t). destruct Hs as [[c Hc]|[n' [-> Hc]]]; rewrite Hc; cbn.
    + rewrite (tot_delete _ _ _ _ Hc). cbn. assert (Hnc : c = CClear \/ c <> CClear) by (destruct c; by (right + left)).
      destruct Hx as [[Hno Hsz]|(w & x & Est & Hz)].
      * assert (c <> CClear) by (intros ->; apply (Hno t); by rewrite Hp, Hc).
        destruct c; try done; lia.
      * rewrite Est in Hc. apply lookup_singleton_Some in Hc as [-> ->]. destruct Hz as [?|[[= -> ->] ->]]; [done|].
        rewrite Est. rewrite map_size_empty. rewrite <- insert_empty, tot_insert, tot_empty by apply lookup_empty. done.
    + rewrite (tot_delete _ _ _ _ Hc). cbn.
      destruct Hx as [[Hno Hsz]|(w & x & Est & Hz)]; [lia|].
      rewrite Est in Hc. apply lookup_singleton_Some in Hc as [-> ->]. naive_solver.
  - destruct Hs as (c & ks & vis & n' & Hst & Hv & Hb & ->).
    assert (Hcl : c <> CClear).
    { intros ->. destruct Hx as [[Hno _]|(w & x & Est & Hz)]; [apply (Hno t); by rewrite Hp, Hst|].
      rewrite Est in Hst. apply lookup_singleton_Some in Hst as [-> ->]. naive_solver. }
    eapply ainv_update; [done|done|by destruct b|done|]. destruct b; [done|]. rewrite (Hb eq_refl). done.
  - destruct Hs as (c & Hst & Hat & ->).
    assert (Hnc : c = CClear \/ c <> CClear) by (destruct c; by (right + left)).
    destruct Hnc as [->|Hnc].
    + destruct Hx as [[Hno _]|(w & x & Est & Hz)]; [destruct (Hno t); by rewrite Hp, Hst|].
      rewrite Est in Hst. apply lookup_singleton_Some in Hst as [-> ->].
      split; [|split; [done|]].
      * intros u. rewrite Hp, Est. cbn. destruct (decide (u = t)) as [->|Hne]; [by rewrite lookup_insert, lookup_singleton|].
        by rewrite lookup_insert_ne.
      * right. exists t, (ADone CClear RUnit). cbn. rewrite Est, insert_singleton. split; [done|]. by right.
    + eapply ainv_update; [done|done|done|done|]. cbn. rewrite seq_grow; [lia| |done|done].
      apply (Hpp t). by rewrite Hp, Hst.
  - destruct Hs as (c & Hst & Hat & Hd & ->).
    eapply ainv_update; [done|done|done|by destruct c|done].
  - destruct Hs as (c & ks & vis & n' & Hst & Hk & ->).
    assert (Hcl : c <> CClear).
    { intros ->. destruct Hx as [[Hno _]|(w & x & Est & Hz)]; [apply (Hno t); by rewrite Hp, Hst|].
      rewrite Est in Hst. apply lookup_singleton_Some in Hst as [-> ->]. naive_solver. }
    eapply ainv_update; [done|done|done|done|done].
  - destruct Hs as (c & n' & Hst & ->).
    assert (Hcl : c <> CClear).
    { intros ->. destruct Hx as [[Hno _]|(w & x & Est & Hz)]; [apply (Hno t); by rewrite Hp, Hst|].
      rewrite Est in Hst. apply lookup_singleton_Some in Hst as [-> ->]. naive_solver. }
    eapply ainv_update; [done|done|done|done|]. cbn. destruct c; cbn; lia.
Qed.

Lemma visible_ok pend (i : item) tr :
  clear_alone pend (visible i ++ tr) -> Forall (ok_ev pend) (visible i) /\ clear_alone (pend_tr pend (visible i)) tr.
Proof.
  destruct i; cbn [visible app pend_tr]; intros Hc; try (by split; [apply Forall_nil_2|]);
    apply clear_alone_cons in Hc as [H1 H2]; (split; [by apply Forall_singleton|done]).
Qed.

Lemma ainv_run (l : list item) a pend n a' :
  ainv a pend n -> arun a l a' -> clear_alone pend (observed l) -> Forall plain_ev (observed l) ->
  ainv a' (pend_tr pend (observed l)) (cnt_tr pend n (observed l)).
Proof.
  revert a pend n. induction l as [|i l IH]; intros a pend n Hi Hr Hcl Hpl.
  - cbn in Hr. by subst a'.
  - destruct Hr as (a1 & Hs & Hr). change (observed (i :: l)) with (visible i ++ observed l) in *.
    apply visible_ok in Hcl as [Hok Hcl]. apply Forall_app in Hpl as [Hpl1 Hpl2].
    rewrite pend_app, cnt_app. eapply IH; [by eapply ainv_step|done|done|done].
Qed.

Lemma abstract_count (l : list item) a :
  arun a_new l a -> clear_alone ∅ (observed l) -> Forall plain_ev (observed l) -> a_st a = ∅ ->
  Z.of_nat (size (a_map a)) = cnt_tr ∅ 0 (observed l).
Proof.
  intros Hr Hcl Hpl Hst.
  assert (Hi : ainv a_new ∅ 0).
  { split; [intros t; cbn; by rewrite !lookup_empty|]. split; [done|]. left. split; [done|].
    cbn. rewrite tot_empty, map_size_empty. done. }
  pose proof (ainv_run _ _ _ _ _ Hi Hr Hcl Hpl) as (_ & _ & [[_ Hsz]|(t & x & Est & _)]).
  - rewrite Hsz, Hst, tot_empty. lia.
  - rewrite Hst in Est. symmetry in Est. by apply map_non_empty_singleton in Est.
Qed.

(** ** The code *)
Definition cgrow (cp : call * pc) : Z :=
  match cp.2 with X_ret r => delta cp.1 r | _ => 0 end.
Definition lenok (c : call) (p : pc) : Prop :=
  match p with
  | P_len r d => d = delta c r
  | P_clr | P_clr2 => False
  | P_une None => delta c (absent c) = 0%Z
  | _ => True
  end.

Lemma finish_grow c r : cgrow (c, finish c r) = 0%Z /\ lenok c (finish c r).
Proof. unfold finish, cgrow. case_decide; done. Qed.
Lemma after_grow c m r : cgrow (c, after c m r) = 0%Z /\ lenok c (after c m r).
Proof. destruct m; [apply finish_grow|done..]. Qed.
Lemma panic_grow c m : cgrow (c, after_panic m) = 0%Z /\ lenok c (after_panic m).
Proof. destruct m; [|done..]. split; [|done]. by destruct c. Qed.

Lemma miss_len (s : shared) : s_len (missLocked s) = s_len s.
Proof. unfold missLocked, promote. by case_decide. Qed.

Lemma step_len t c p s lab p' s' ev :
  c <> CClear -> lenok c p -> step t c p s lab = Some (Some p', s', ev) ->
  (s_len s' - cgrow (c, p') = s_len s - cgrow (c, p))%Z /\ lenok c p'.
Proof.
  intros Hc Hok Hstep.
  assert (Hds : forall k e q s0 s1 p1 ev1, dirty_store k e q s0 = Some (Some p1, s1, ev1) ->
    (p1 = q \/ p1 = X_ret RPanic) /\ s_len s1 = s_len s0).
  { intros k e q s0 s1 p1 ev1. unfold dirty_store, goto. destruct (s_dirty s0); intros [= <- <- <-]; cbn; auto. }
  assert (Hpanic : cgrow (c, X_ret RPanic) = 0%Z) by by destruct c.
  assert (Hgo : forall q s1, cgrow (c, q) = 0%Z /\ lenok c q -> cgrow (c, p) = 0%Z -> s_len s1 = s_len s ->
     goto q s1 = Some (Some p', s', ev) -> (s_len s' - cgrow (c, p') = s_len s - cgrow (c, p))%Z /\ lenok c p').
  { intros q s1 [Hq Hl] Hp Hs1 [= <- <- <-]. split; [|done]. rewrite Hq, Hp. lia. }
  destruct p; try (destruct lab as [|kl|b]; [|discriminate Hstep|discriminate Hstep]); cbn [step] in Hstep; try done.
  - unfold step_read in Hstep. destruct c; try done; repeat (case_match || case_decide); by (eapply Hgo; [| | |exact Hstep]).
  - destruct (s_lock s); [done|]. by (eapply Hgo; [| | |exact Hstep]).
  - unfold step_read2 in Hstep. destruct c; try done; repeat (case_match || case_decide); by (eapply Hgo; [| | |exact Hstep]).
  - unfold step_dirty, add_key in Hstep.
    destruct c; try done; repeat (case_match || case_decide); (eapply Hgo; [| | |exact Hstep]; [|done|by rewrite ?miss_len]); cbn; split; try done; by case_match.
  - cbn in Hstep. set (q := match c with CLoadOrStore _ _ => _ | _ => _ end : pc) in Hstep.
    assert (Hq : cgrow (c, q) = 0%Z /\ lenok c q) by by destruct c.
    destruct (s_ent s e) eqn:Ee; [by (eapply Hgo; [| | |exact Hstep])|destruct (call_key c); [|by (eapply Hgo; [| | |exact Hstep])]|by (eapply Hgo; [| | |exact Hstep])].
    apply Hds in Hstep as [[-> | ->] Hl]; cbn in Hl; [destruct Hq as [Hq1 Hq2]; rewrite Hq1|rewrite Hpanic]; cbn; split; done || lia.
  - destruct (s_ent s e), (call_ptr c); by (eapply Hgo; [| | |exact Hstep]).
  - destruct lab as [|kl|b]; [case_decide; [|done]|destruct (todo !! kl) as [e|] eqn:Ek; [|done]|done]; by (eapply Hgo; [| | |exact Hstep]).
  - destruct (s_ent s e); [by (eapply Hgo; [| | |exact Hstep])|by (eapply Hgo; [| | |exact Hstep])|].
    apply Hds in Hstep as [[-> | ->] Hl]; [|rewrite Hpanic]; cbn; split; done || lia.
  - destruct (s_ent s e); by (eapply Hgo; [| | |exact Hstep]).
  - by (eapply Hgo; [| | |exact Hstep]).
  - destruct (call_key c), (call_ptr c); try done.
    apply Hds in Hstep as [[-> | ->] Hl]; cbn in Hl; [|rewrite Hpanic]; cbn; split; done || lia.
  - eapply Hgo; [| | |exact Hstep]; [done|done|by rewrite miss_len].
  - eapply Hgo; [| | |exact Hstep]; [apply finish_grow|done|done].
  - destruct o, lab; try done; by (eapply Hgo; [| | |exact Hstep]).
  - by (eapply Hgo; [| | |exact Hstep]).
  - by (eapply Hgo; [| | |exact Hstep]).
  - unfold step_load in Hstep.
    destruct c; try done; repeat case_match;
      (eapply Hgo; [| | |exact Hstep]; [first [apply after_grow|apply panic_grow|done]|done|done]).
  - case_decide; (eapply Hgo; [| | |exact Hstep]; [first [apply after_grow|done]|done|done]).
  - injection Hstep as <- <- <-. cbn in *. split; [lia|done].
  - destruct lab as [|kl|b]; [case_decide; [|done]|destruct (todo !! kl) as [e|] eqn:Ek; [|done]|done].
    + eapply Hgo; [| | |exact Hstep]; [|done|done]. split; [|done]. by destruct c.
    + by (eapply Hgo; [| | |exact Hstep]).
  - destruct (slot_val (s_ent s e)); by (eapply Hgo; [| | |exact Hstep]).
  - destruct lab as [|kl|b]; [by destruct c|by destruct c|].
    destruct c, b; try done; injection Hstep as <- <- <-; cbn; split; done || lia.
  - eapply Hgo; [| | |exact Hstep]; [|done|done]. split; [|done]. by destruct c.
Qed.

Definition cinv (cf : config) (pend : gmap nat call) (n : Z) : Prop :=
  (forall t, pend !! t = fst <$> c_thr cf !! t) /\
  (((forall t, pend !! t <> Some CClear) /\
    (forall t c p, c_thr cf !! t = Some (c, p) -> lenok c p) /\
    s_len (c_sh cf) = (n + tot cgrow (c_thr cf))%Z) \/
   (exists t p, c_thr cf = {[t := (CClear, p)]} /\
      match p with
      | P_read | P_lock | P_read2 | P_clr => s_len (c_sh cf) = n /\ n = Z.of_nat (size (contents (c_sh cf)))
      | P_clr2 => True
      | P_un RUnit | X_ret RUnit => s_len (c_sh cf) = 0%Z
      | _ => False
      end)).

Lemma cinv_step (cf : config) pend n a cf' ev :
  cinv cf pend n -> act cf a = Some (cf', ev) -> clear_alone pend ev ->
  (pend = ∅ -> n = Z.of_nat (size (contents (c_sh cf)))) ->
  (forall t c, pend !! t = Some c -> plain c) ->
  cinv cf' (pend_tr pend ev) (cnt_tr pend n ev).
Proof.
  intros (Hp & Hx) Hact Hcl Hn Hpl. destruct cf as [s thr]. cbn [c_sh c_thr] in *.
  destruct a as [t c|t lab]; cbn in Hact.
  - destruct (thr !! t) eqn:Ht; [done|]. injection Hact as <- <-. cbn in Hcl |- *. destruct Hcl as (Hcl & Hno & _).
    split; cbn.
    { intros u. destruct (decide (u = t)) as [->|Hne]; [by rewrite !lookup_insert|]. rewrite !lookup_insert_ne by done. apply Hp. }
    destruct Hx as [(_ & Hok & Hlen)|(u & p & -> & _)].
    2:{ exfalso. apply (Hno u). by rewrite Hp, lookup_singleton. }
    assert (Hnc : c = CClear \/ c <> CClear) by (destruct c; by (right + left)).
    destruct Hnc as [->|Hnc].
    + right. exists t, P_read.
      assert (thr = ∅) as ->.
      { apply map_empty. intros u. specialize (Hp u). rewrite (Hcl eq_refl), lookup_empty in Hp. by destruct (thr !! u). }
      split; [done|]. rewrite tot_empty in Hlen. split; [lia|]. by apply Hn, Hcl.
    + left. split.
      { intros u [[_ ?]|[_ Hu]]%lookup_insert_Some; [done|]. by apply (Hno u). }
      split.
      { intros u c' p' [[_ [= <- <-]]|[_ Hu]]%lookup_insert_Some; [by destruct c|eauto]. }
      rewrite tot_insert by done. replace (cgrow (c, enter c)) with 0%Z by by destruct c. lia.
  - destruct (thr !! t) as [[c p]|] eqn:Ht; [|done].
    destruct (step t c p s lab) as [[[[p'|] s'] ev']|] eqn:Hstep; [| |done]; injection Hact as <- <-.
    + assert (Hpt : pend_tr pend ev' = pend /\ cnt_tr pend n ev' = n).
      { assert (ev' = [] \/ exists u k v b, ev' = [ECall u k v b]) as [->|(u & k & v & b & ->)]; [|done|done].
        destruct p as [| | | | | | | | | | | | |[]| | | | | | | | | | | | ], lab; cbn in Hstep; try done;
          unfold step_read, step_read2, step_dirty, step_load, add_key, dirty_store, goto in Hstep;
          repeat (case_match || case_decide); simplify_eq; eauto 10. }
      destruct Hpt as [-> ->]. split; cbn.
      { intros u. rewrite Hp. destruct (decide (u = t)) as [->|Hne]; [by rewrite lookup_insert, Ht|]. by rewrite lookup_insert_ne. }
      destruct Hx as [(Hno & Hok & Hlen)|(u & p0 & -> & Hm)].
      * assert (Hnc : c <> CClear) by (intros ->; apply (Hno t); by rewrite Hp, Ht).
        destruct (step_len _ _ _ _ _ _ _ _ Hnc (Hok _ _ _ Ht) Hstep) as [Hl Hok'].
        left. split; [done|]. split.
        { intros u c' p1 [[<- [= <- <-]]|[_ Hu]]%lookup_insert_Some; eauto. }
        rewrite (tot_update _ _ _ _ _ Ht). lia.
      * apply lookup_singleton_Some in Ht as [-> [= <- ->]].
        right. exists t, p'. split; [by rewrite insert_singleton|].
        destruct p; try done; destruct lab; try done; cbn in Hstep.
        -- case_decide as Hd; injection Hstep as <- <- <-; [|done].
           destruct Hm as [-> ->]. destruct Hd as [Hr Ha]. unfold contents. rewrite Ha, Hr, omap_empty. by rewrite map_size_empty.
        -- destruct (s_lock s); [done|]. by injection Hstep as <- <- <-.
        -- case_decide as Hd; injection Hstep as <- <- <-; done.
        -- injection Hstep as <- <- <-. destruct r; try done.
        -- by injection Hstep as <- <- <-.
        -- by injection Hstep as <- <- <-.
    + assert (exists r, p = X_ret r /\ s' = s /\ ev' = [ERet t (ret_of c r)]) as (r & -> & -> & ->).
      { destruct p as [| | | | | | | | | | | | |[]| | | | | | | | | | | | ], lab; cbn in Hstep; try done;
          unfold step_read, step_read2, step_dirty, step_load, add_key, dirty_store, goto in Hstep;
          repeat (case_match || case_decide); simplify_eq; eauto 10. }
      cbn. split; cbn.
      { intros u. destruct (decide (u = t)) as [->|Hne]; [by rewrite !lookup_delete|]. rewrite !lookup_delete_ne by done. apply Hp. }
      left. rewrite (Hp t), Ht. cbn.
      destruct Hx as [(Hno & Hok & Hlen)|(u & p0 & -> & Hm)].
      * split; [intros u [_ Hu]%lookup_delete_Some; by apply (Hno u)|].
        split; [intros u c' p1 [_ Hu]%lookup_delete_Some; eauto|].
        assert (Hnc : c <> CClear) by (intros ->; apply (Hno t); by rewrite Hp, Ht).
        rewrite (tot_delete _ _ _ _ Ht).
        assert (Hret : ret_of c r = r).
        { assert (Hpc : plain c) by (apply (Hpl t); by rewrite Hp, Ht). by destruct c. }
        rewrite Hret. change (cgrow (c, X_ret r)) with (delta c r).
        assert (Hm : match c with CClear => 0%Z | _ => (n + delta c r)%Z end = (n + delta c r)%Z) by by destruct c.
        rewrite Hm. lia.
      * apply lookup_singleton_Some in Ht as [-> [= <- ->]]. destruct r; try done.
        rewrite delete_singleton, tot_empty. split; [|split; [done|lia]].
        intros u [Hne Hu]%lookup_delete_Some. by rewrite Hp, lookup_singleton_ne in Hu.
Qed.

Lemma contents_lookup (s : shared) k : contents s !! k = emap s !! k ≫= (fun e => slot_val (s_ent s e)).
Proof. unfold contents, emap. by rewrite lookup_omap. Qed.

(** The atomic object at the end of an execution after which no call is in progress. *)
Lemma quiet_linearizes (acts : list (action K V)) (cf : config) tr :
  Inhabited K -> run new_config acts = Some (cf, tr) -> c_thr cf = ∅ ->
  exists l, arun a_new l (mk_astate (contents (c_sh cf)) ∅) /\ observed l = tr.
Proof.
  intros Hinh Hr Hthr. destruct (run_linearizes _ _ _ _ _ _ Hinh Hr) as (l & b & Hl & Hob & Hm & Hst).
  exists l. split; [|done]. destruct b as [bm bst]. cbn in Hm, Hst.
  assert (bm = contents (c_sh cf)) as <-.
  { apply map_eq. intros k. by rewrite contents_lookup, Hm. }
  assert (bst = ∅) as ->; [|done]. apply map_empty. intros t. apply Hst. by rewrite Hthr.
Qed.

Lemma plain_pend tr pend :
  Forall plain_ev tr -> (forall t c, pend !! t = Some c -> plain c) ->
  forall t c, pend_tr pend tr !! t = Some c -> plain c.
Proof.
  revert pend. induction tr as [|e tr IH]; intros pend Hpl Hp; [done|].
  apply Forall_cons in Hpl as [He Hpl]. apply IH; [done|]. intros t c. destruct e; cbn.
  - intros [[<- <-]|[_ ?]]%lookup_insert_Some; [exact He|eauto].
  - intros [_ ?]%lookup_delete_Some. eauto.
  - eauto.
Qed.

Lemma run_cinv (acts : list (action K V)) (cf : config) tr :
  Inhabited K -> run new_config acts = Some (cf, tr) -> clear_alone ∅ tr -> Forall plain_ev tr ->
  cinv cf (pend_tr ∅ tr) (cnt_tr ∅ 0 tr).
Proof.
  intros Hinh. revert cf tr. induction acts as [|a acts IH] using rev_ind; intros cf tr Hr Hcl Hpl.
  - injection Hr as <- <-. split; [intros t; cbn; by rewrite !lookup_empty|]. left. split; [done|].
    split; [done|]. cbn. by rewrite tot_empty.
  - rewrite run_app in Hr. destruct (run new_config acts) as [[cf1 tr1]|] eqn:Hr1; [|done].
    cbn in Hr. destruct (act cf1 a) as [[cf2 ev]|] eqn:Ha; [|done]. injection Hr as <- <-.
    rewrite app_nil_r in *. apply clear_alone_app in Hcl as [Hcl1 Hcl2]. apply Forall_app in Hpl as [Hpl1 Hpl2].
    specialize (IH _ _ eq_refl Hcl1 Hpl1). rewrite pend_app, cnt_app. eapply cinv_step; [done|done|done| |].
    + intros Hpe. destruct IH as [Hp _].
      assert (Hthr : c_thr cf1 = ∅).
      { apply map_empty. intros t. specialize (Hp t). rewrite Hpe, lookup_empty in Hp. by destruct (c_thr cf1 !! t). }
      destruct (quiet_linearizes _ _ _ Hinh Hr1 Hthr) as (l & Hl & <-).
      symmetry. by apply (abstract_count l _ Hl).
    + apply plain_pend; done.
Qed.

Lemma plain_len (acts : list (action K V)) (cf : config) tr :
  Inhabited K -> run new_config acts = Some (cf, tr) -> clear_alone ∅ tr -> Forall plain_ev tr ->
  c_thr cf = ∅ -> s_len (c_sh cf) = Z.of_nat (size (contents (c_sh cf))).
Proof.
  intros Hinh Hr Hcl Hpl Hthr.
  destruct (quiet_linearizes _ _ _ Hinh Hr Hthr) as (l & Hl & Hob).
  destruct (run_cinv _ _ _ Hinh Hr Hcl Hpl) as [_ [(_ & _ & Hlen)|(t & p & E & _)]].
  - rewrite Hlen, Hthr, tot_empty, <- Hob. rewrite Z.add_0_r. symmetry. apply (abstract_count l _ Hl); by rewrite ?Hob.
  - rewrite Hthr in E. symmetry in E. by apply map_non_empty_singleton in E.
Qed.

(** ** Store is a Swap, and Delete a LoadAndDelete, whose result is dropped *)
Definition plainly (c : call) : call :=
  match c with CStore k q => CSwap k q | CDelete k => CLoadAndDelete k | _ => c end.
Definition plain_act (a : action K V) : action K V :=
  match a with AInv t c => AInv t (plainly c) | AStep t lab => AStep t lab end.
Definition plain_cf (cf : config) : config :=
  mk_config (c_sh cf) (prod_map plainly id <$> c_thr cf).

Definition alike (e e' : event) : Prop :=
  match e, e' with
  | EInv t c, EInv t' c' => t' = t /\ c' = plainly c
  | ERet t _, ERet t' _ => t' = t
  | ECall _ _ _ _, _ => e' = e
  | _, _ => False
  end.

Lemma step_events t c p s lab op s' ev :
  step t c p s lab = Some (op, s', ev) ->
  ev = [] \/ (exists u k v b, ev = [ECall u k v b]) \/ (exists r, ev = [ERet t r]).
Proof.
  intros Hstep.
  destruct p as [| | | | | | | | | | | | |[]| | | | | | | | | | | | ], lab; cbn in Hstep; try done;
    unfold step_read, step_read2, step_dirty, step_load, add_key, dirty_store, goto in Hstep;
    repeat (case_match || case_decide); simplify_eq; eauto 10.
Qed.

Lemma plainly_delta c r : delta (plainly c) r = delta c r.
Proof. by destruct c. Qed.
Lemma plainly_finish c r : finish (plainly c) r = finish c r.
Proof. unfold finish. by rewrite plainly_delta. Qed.
Lemma plainly_after c m r : after (plainly c) m r = after c m r.
Proof. destruct m; [apply plainly_finish|done..]. Qed.

Lemma plainly_step t c p s lab op s' ev :
  step t c p s lab = Some (op, s', ev) ->
  exists ev', step t (plainly c) p s lab = Some (op, s', ev') /\ Forall2 alike ev ev'.
Proof.
  intros Hstep.
  assert (Hsame : plainly c = c \/ (exists k q, c = CStore k q) \/ (exists k, c = CDelete k)).
  { destruct c; eauto. }
  assert (Hrefl : Forall2 alike ev ev).
  { destruct (step_events _ _ _ _ _ _ _ _ Hstep) as [->|[(u & k & v & b & ->)|(r & ->)]]; repeat constructor. }
  destruct Hsame as [->|Hsame]; [by exists ev|].
  assert (Heq : (forall r, p <> X_ret r) -> step t (plainly c) p s lab = step t c p s lab).
  { intros Hp. destruct p as [| | | | | | | | | | | | |[]| | | | | | | | | | | | ], lab; try done; cbn;
      try (rewrite plainly_finish; done); destruct Hsame as [(k1 & q1 & ->)|(k1 & ->)]; try done; cbn;
      by destruct (Hp r). }
  destruct p; try (rewrite Heq by done; by exists ev).
  destruct lab; try done. injection Hstep as <- <- <-. eexists. split; [done|]. repeat constructor.
Qed.

Lemma plainly_act (cf : config) a cf' ev :
  act cf a = Some (cf', ev) ->
  exists ev', act (plain_cf cf) (plain_act a) = Some (plain_cf cf', ev') /\ Forall2 alike ev ev'.
Proof.
  destruct cf as [s thr]. destruct a as [t c|t lab]; cbn; unfold plain_cf; cbn; rewrite lookup_fmap.
  - destruct (thr !! t); [done|]. intros [= <- <-]. cbn. exists [EInv t (plainly c)]. split; [|by repeat constructor].
    rewrite fmap_insert. cbn. do 4 f_equal. by destruct c.
  - destruct (thr !! t) as [[c p]|]; [|done]. cbn.
    destruct (step t c p s lab) as [[[op s'] ev0]|] eqn:Hstep; [|done].
    apply plainly_step in Hstep as (ev' & Hstep & Hal). rewrite Hstep.
    destruct op as [p'|]; intros [= <- <-]; exists ev'; (split; [|done]); cbn.
    + by rewrite fmap_insert.
    + by rewrite fmap_delete.
Qed.

Lemma plainly_run acts (cf : config) cf' tr :
  run cf acts = Some (cf', tr) ->
  exists tr', run (plain_cf cf) (plain_act <$> acts) = Some (plain_cf cf', tr') /\ Forall2 alike tr tr'.
Proof.
  revert cf tr. induction acts as [|a acts IH]; intros cf tr Hr; cbn in Hr |- *.
  - injection Hr as <- <-. exists []. split; [done|constructor].
  - destruct (act cf a) as [[cf1 ev]|] eqn:Ha; [|done].
    destruct (run cf1 acts) as [[cf2 tr2]|] eqn:Hr2; [|done]. injection Hr as <- <-.
    apply plainly_act in Ha as (ev' & -> & Hal). apply IH in Hr2 as (tr' & -> & Hal2).
    eexists. split; [done|]. by apply Forall2_app.
Qed.

Lemma alike_plain tr tr' : Forall2 alike tr tr' -> Forall plain_ev tr'.
Proof.
  induction 1 as [|e e' tr tr' He _ IH]; [constructor|]. constructor; [|done].
  destruct e, e'; cbn in *; try done. destruct He as [-> ->]. by destruct c.
Qed.

Lemma alike_clear tr tr' pend :
  Forall2 alike tr tr' -> clear_alone pend tr -> clear_alone (plainly <$> pend) tr'.
Proof.
  intros Hal. revert pend. induction Hal as [|e e' tr tr' He _ IH]; intros pend; [done|].
  rewrite !clear_alone_cons. intros [Hok Hcl]. destruct e as [t c|t r|t k v b], e' as [t' c'|t' r'|t' k' v' b']; cbn in *; try done.
  - destruct He as [-> ->]. destruct Hok as [H1 H2]. split; [split|].
    + intros Hc. rewrite H1; [by rewrite fmap_empty|]. by destruct c.
    + intros u. rewrite lookup_fmap. specialize (H2 u). destruct (pend !! u) as [[]|]; cbn; congruence.
    + rewrite <- fmap_insert. by apply IH.
  - subst t'. split; [done|]. rewrite <- fmap_delete. by apply IH.
  - split; [done|]. by apply IH.
Qed.

Lemma run_len (acts : list (action K V)) (cf : config) tr :
  Inhabited K -> run new_config acts = Some (cf, tr) -> clear_alone ∅ tr -> c_thr cf = ∅ ->
  s_len (c_sh cf) = Z.of_nat (size (contents (c_sh cf))).
Proof.
  intros Hinh Hr Hcl Hthr. apply plainly_run in Hr as (tr' & Hr & Hal).
  assert (Enew : plain_cf new_config = new_config) by (unfold plain_cf, new_config; cbn; by rewrite fmap_empty).
  rewrite Enew in Hr. apply (alike_clear _ _ _ Hal) in Hcl. rewrite fmap_empty in Hcl.
  apply (plain_len _ _ _ Hinh Hr Hcl (alike_plain _ _ Hal)). cbn. by rewrite Hthr, fmap_empty.
Qed.

(** ** How far the counter can be off *)
Definition chg (c : call) : Z := if changing c then 1 else 0.

Lemma chg_delta c : (forall r, 0 <= delta c r <= chg c)%Z \/ (forall r, - chg c <= delta c r <= 0)%Z.
Proof.
  destruct c; try (left; intros []; cbn; lia); try (left; intros [[]|? []| | | |]; cbn; lia);
    right; intros [[]|? []|[]| | |]; cbn; lia.
Qed.

Lemma tot_off (m2 : gmap nat (call * pc)) (m1 : gmap nat (status K V)) :
  (forall t, scall <$> m1 !! t = fst <$> m2 !! t) ->
  (Z.abs (tot cgrow m2 - tot sgrow m1) <= tot (fun cp => chg cp.1) m2)%Z.
Proof.
  revert m1. induction m2 as [|t [c p] m2 Ht IH] using map_ind; intros m1 Hm.
  - assert (m1 = ∅) as ->.
    { apply map_eq. intros t. specialize (Hm t). rewrite lookup_empty. rewrite lookup_empty in Hm. by destruct (m1 !! t). }
    rewrite !tot_empty. lia.
  - pose proof (Hm t) as Hmt. rewrite lookup_insert in Hmt. destruct (m1 !! t) as [y|] eqn:Hy; [|done].
    cbn in Hmt. injection Hmt as Hsc.
    rewrite !tot_insert by done. specialize (IH (delete t m1)). rewrite (tot_delete _ _ _ _ Hy) in IH.
    assert (Hpre : forall u, scall <$> delete t m1 !! u = fst <$> m2 !! u).
    { intros u. destruct (decide (u = t)) as [->|Hne]; [by rewrite lookup_delete, Ht|].
      rewrite lookup_delete_ne by done. specialize (Hm u). by rewrite lookup_insert_ne in Hm. }
    specialize (IH Hpre). cbn [fst].
    assert (Hc : (exists r, cgrow (c, p) = delta c r) \/ cgrow (c, p) = 0%Z) by (destruct p; cbn; eauto).
    assert (Hs : (exists r, sgrow y = delta c r) \/ sgrow y = 0%Z) by (destruct y; cbn in *; subst; eauto).
    assert (0 <= chg c)%Z by (unfold chg; destruct (changing c); lia).
    destruct (chg_delta c) as [Hd|Hd]; destruct Hc as [[r1 Hc]|Hc], Hs as [[r2 Hs]|Hs]; rewrite Hc; rewrite Hs in IH;
      try pose proof (Hd r1); try pose proof (Hd r2); lia.
Qed.

Lemma tot_changing (m : gmap nat (call * pc)) : tot (fun cp => chg cp.1) m = Z.of_nat (changing_now m).
Proof.
  induction m as [|t [c p] m Ht IH] using map_ind.
  - rewrite tot_empty. unfold changing_now. by rewrite map_to_list_empty.
  - rewrite tot_insert by done. unfold changing_now in *. rewrite map_to_list_insert by done.
    rewrite filter_cons, IH. cbn [fst snd]. unfold chg.
    destruct (changing c); [rewrite decide_True by done|rewrite decide_False by done]; cbn [length]; lia.
Qed.

Lemma changing_plainly (m : gmap nat (call * pc)) :
  changing_now (prod_map plainly id <$> m) = changing_now m.
Proof.
  apply Nat2Z.inj. rewrite <- !tot_changing. induction m as [|t [c p] m Ht IH] using map_ind.
  - by rewrite fmap_empty.
  - rewrite fmap_insert, !tot_insert by (by rewrite ?lookup_fmap, ?Ht). rewrite IH. cbn. by destruct c.
Qed.

Lemma run_len_off (acts : list (action K V)) (cf : config) tr :
  Inhabited K -> run new_config acts = Some (cf, tr) -> clear_alone ∅ tr ->
  (forall t p, c_thr cf !! t <> Some (CClear, p)) ->
  (Z.abs (s_len (c_sh cf) - Z.of_nat (size (contents (c_sh cf)))) <= Z.of_nat (changing_now (c_thr cf)))%Z.
Proof.
  intros Hinh Hr Hcl Hno. apply plainly_run in Hr as (tr' & Hr & Hal).
  assert (Enew : plain_cf new_config = new_config) by (unfold plain_cf, new_config; cbn; by rewrite fmap_empty).
  rewrite Enew in Hr. apply (alike_clear _ _ _ Hal) in Hcl. rewrite fmap_empty in Hcl.
  apply alike_plain in Hal. rewrite <- changing_plainly.
  change (c_sh cf) with (c_sh (plain_cf cf)). change (_ <$> c_thr cf) with (c_thr (plain_cf cf)).
  assert (Hno' : forall t p, c_thr (plain_cf cf) !! t <> Some (CClear, p)).
  { intros t p. cbn. rewrite lookup_fmap. destruct (c_thr cf !! t) as [[c q]|] eqn:E; [|done]. cbn.
    intros [= E1 <-]. apply (Hno t q). rewrite E. by destruct c. }
  clear Hno. generalize dependent (plain_cf cf). clear cf. intros cf Hr Hno.
  destruct (run_linearizes deref zero veq _ _ _ Hinh Hr) as (l & b & Hl & Hob & Hmap & _).
  assert (Hi : ainv a_new ∅ 0).
  { split; [intros t; cbn; by rewrite !lookup_empty|]. split; [done|]. left. split; [done|].
    cbn. rewrite tot_empty, map_size_empty. done. }
  rewrite <- Hob in Hcl, Hal.
  pose proof (ainv_run _ _ _ _ _ Hi Hl Hcl Hal) as (Hp & _ & Hx).
  rewrite Hob in *.
  destruct (run_cinv _ _ _ Hinh Hr Hcl Hal) as [Hp' Hx'].
  assert (a_map b = contents (c_sh cf)) as Hb by (apply map_eq; intros k; by rewrite Hmap, contents_lookup).
  rewrite <- Hb.
  destruct Hx' as [(_ & _ & Hlen)|(t & p & E & _)]; [|by destruct (Hno t p); rewrite E, lookup_singleton].
  destruct Hx as [[_ Hsz]|(t & x & E & Hx)].
  - rewrite Hsz, Hlen, <- tot_changing.
    pose proof (tot_off (c_thr cf) (a_st b)) as Hoff. lapply Hoff; [lia|]. intros t. by rewrite <- Hp, <- Hp'.
  - pose proof (Hp t) as Hpt. rewrite E, lookup_singleton in Hpt. rewrite Hp' in Hpt. cbn in Hpt.
    destruct (c_thr cf !! t) as [[c p]|] eqn:Et; [|done]. cbn in Hpt. injection Hpt as ->.
    destruct (Hno t p). rewrite Et. by destruct Hx as [-> | [-> _]].
Qed.

End len.
