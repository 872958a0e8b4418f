(** The invariant of every execution of rwmap.  It carries a run of the atomic object that explains
    the trace so far.  That run is written as a history with some extra marks: a mark stands where
    entries lost their place in the map.  A goroutine may still hold such an entry; what it then
    does to it is inserted into the history just before the mark. *)
From Verif Require Import Base RwMapModel RwMapSpec.

Section inv.
Context {K : Type} `{Countable K} {V : Type}.
Context (deref : nat -> V) (veq : V -> V -> option bool).
Local Notation call := (call K V).
Local Notation result := (result V).
Local Notation event := (event K V).
Local Notation pc := (pc K V).
Local Notation shared := (shared K).
Local Notation status := (status K V).
Local Notation astate := (astate K V).
Local Notation item := (item K V).
Local Notation astep := (astep deref veq).
Local Notation arun := (arun deref veq).
Local Notation slot_val := (slot_val deref).

(** ** Histories with marks *)
(** [HClr t os]: the Clear of [t] takes effect, the entries [os] lose their place.  [HDel k e t]: the
    LoadAndDelete of [t] took the entry [e] of [k] out of the dirty map; its own effect comes before
    the mark once it is known, so that the mark deletes [k] on its behalf.  [HMark os]: the
    expunged entries [os] were dropped by a promotion. *)
Inductive hitem : Type :=
| HI (i : item)
| HClr (t : nat) (os : gmap K nat)
| HDel (k : K) (e : nat) (t : nat)
| HMark (os : gmap K nat).

Definition hstep (a : astate) (h : hitem) (a' : astate) : Prop :=
  match h with
  | HI i => astep a i a'
  | HClr t _ =>
      a_st a !! t = Some (AInv_ CClear) /\
      a' = mk_astate ∅ (<[t := ADone CClear RUnit]> (a_st a))
  | HDel k _ _ => a' = mk_astate (delete k (a_map a)) (a_st a)
  | HMark _ => a' = a
  end.

Fixpoint hrun (a : astate) (l : list hitem) (a' : astate) : Prop :=
  match l with
  | [] => a' = a
  | h :: l => exists a1, hstep a h a1 /\ hrun a1 l a'
  end.

Definition hvis (h : hitem) : list event := match h with HI i => visible i | _ => [] end.

Definition item_thr (i : item) : nat :=
  match i with
  | IInv t _ | IRet t _ | ICall t _ _ _ | ILin t | ISnap t _ | ISee t _ | IEnd t => t
  end.
Definition own (h : hitem) : option nat :=
  match h with HI i => Some (item_thr i) | HClr t _ => Some t | _ => None end.
Definition orphs (h : hitem) : gmap K nat :=
  match h with HClr _ os | HMark os => os | HDel k e _ => {[k := e]} | HI _ => ∅ end.

Definition quiet (t : nat) (l : list hitem) : Prop := forall h, h ∈ l -> own h <> Some t.
Definition rquiet (t : nat) (k : K) (l : list hitem) : Prop :=
  forall h, h ∈ l -> own h = Some t ->
    exists k', k' <> k /\ (h = HI (ISee t k') \/ exists v, h = HI (ICall t k' v true)).

(** ** The state of the map *)
(** The entry of every key. *)
Definition emap (s : shared) : gmap K nat :=
  if s_am s then s_rd s ∪ dirty_map s else s_rd s.

Inductive phase : Type := Normal | Build (todo : gmap K nat) | Cleared.
Definition phase_of (p : pc) : phase :=
  match p with
  | P_dl todo => Build todo
  | P_dlx k e todo | P_dlc k e todo => Build (<[k := e]> todo)
  | P_amend => Build ∅
  | P_clr2 => Cleared
  | _ => Normal
  end.
Definition the_phase (s : shared) (thr : gmap nat (call * pc)) : phase :=
  match s_lock s with
  | Some t => match thr !! t with Some (_, p) => phase_of p | None => Normal end
  | None => Normal
  end.

Definition mapok (kof : nat -> K) (n : nat) (m : gmap K nat) : Prop :=
  forall k e, m !! k = Some e -> kof e = k /\ e < n.

Definition sinv (ph : phase) (s : shared) (kof : nat -> K) : Prop :=
  mapok kof (s_next s) (s_rd s) /\ mapok kof (s_next s) (dirty_map s) /\
  match ph with
  | Normal =>
      if s_am s then
        exists d, s_dirty s = Some d /\
          (forall k e, s_rd s !! k = Some e ->
             (s_ent s e = SExp /\ d !! k = None) \/ (s_ent s e <> SExp /\ d !! k = Some e)) /\
          (forall k e, d !! k = Some e -> s_ent s e <> SExp)
      else
        (s_dirty s = None \/ (s_dirty s = Some ∅ /\ s_rd s = ∅)) /\
        (forall k e, s_rd s !! k = Some e -> s_ent s e <> SExp)
  | Build todo =>
      s_am s = false /\
      exists d, s_dirty s = Some d /\
        (forall k e, todo !! k = Some e -> s_rd s !! k = Some e /\ s_ent s e <> SExp /\ d !! k = None) /\
        (forall k e, d !! k = Some e -> s_rd s !! k = Some e /\ s_ent s e <> SExp) /\
        (forall k e, s_rd s !! k = Some e -> todo !! k = None ->
           (s_ent s e = SExp /\ d !! k = None) \/ (s_ent s e <> SExp /\ d !! k = Some e))
  | Cleared => s_am s = false /\ s_rd s = ∅
  end.

(** ** Goroutines *)
Definition locked (p : pc) : bool :=
  match p with
  | P_read | P_lock | E_load _ Fast | E_cas _ _ Fast | P_len _ _ | R_next _ _ | R_load _ _ _ _
  | R_call _ _ _ _ | P_getlen | X_ret _ => false
  | _ => true
  end.

Definition stat (cp : call * pc) : status :=
  let '(c, p) := cp in
  match p with
  | P_miss r | P_un r | P_len r _ => ADone c (ret_of c r)
  | X_ret r => match c with CLen => AInv_ CLen | _ => ADone c (ret_of c r) end
  | P_une None => ADone c (ret_of c (absent c))
  | P_clr2 => ADone c RUnit
  | P_unr m => AIter c (dom m) ∅ 0
  | R_next m n => AIter c (dom m) ∅ n
  | R_load k _ m n => AIter c ({[k]} ∪ dom m) ∅ n
  | R_call k v m n => AIter c (dom m) {[k := v]} n
  | _ => AInv_ c
  end.

(** Entries that a goroutine will use although it may not hold the lock then. *)
Definition holds (p : pc) (e : nat) : Prop :=
  match p with P_une (Some e') | E_load e' _ | E_cas e' _ _ => e' = e | _ => False end.
Definition rholds (p : pc) (e : nat) : Prop :=
  match p with
  | P_unr m | R_next m _ | R_call _ _ m _ => exists k, m !! k = Some e
  | R_load _ e' m _ => e' = e \/ exists k, m !! k = Some e
  | _ => False
  end.

Definition storing (c : call) : Prop :=
  match c with CStore _ _ | CSwap _ _ | CLoadOrStore _ _ => True | _ => False end.
Definition swapping (c : call) : Prop :=
  match c with CStore _ _ | CSwap _ _ => True | _ => False end.
Definition finding (c : call) : Prop :=
  match c with CLoad _ | CLoadAndDelete _ | CDelete _ | CCad _ _ => True | _ => False end.
Definition deleting (c : call) : Prop :=
  match c with CLoadAndDelete _ | CDelete _ => True | _ => False end.
Definition los_or_cas (c : call) : Prop :=
  match c with CLoadOrStore _ _ | CCas _ _ _ => True | _ => False end.

Definition writer (c : call) : Prop :=
  match c with CStore _ _ | CSwap _ _ | CLoadOrStore _ _ | CCas _ _ _ => True | _ => False end.

Definition cas_ok (c : call) (x : slot) : Prop :=
  match c with
  | CStore _ _ | CSwap _ _ => x <> SExp
  | CLoadOrStore _ _ => x = SNil
  | CLoadAndDelete _ | CDelete _ => exists q, x = SPtr q
  | CCas _ old _ | CCad _ old => exists q, x = SPtr q /\ veq (deref q) old = Some true
  | _ => False
  end.

Definition mode_ok (c : call) (e : nat) (m : mode) (s : shared) (kof : nat -> K) : Prop :=
  match m with
  | Fast => writer c -> emap s !! kof e = Some e -> s_rd s !! kof e = Some e
  | _ => los_or_cas c /\ emap s !! kof e = Some e /\
         (match c with CLoadOrStore _ _ => s_ent s e <> SExp | _ => True end) /\
         (m = LckMiss -> s_am s = true)
  end.

Definition pcinv (c : call) (p : pc) (s : shared) (kof : nat -> K) : Prop :=
  match p with
  | P_read | P_lock | P_read2 => c <> CLen
  | P_dirty => exists k, call_key c = Some k /\ s_rd s !! k = None /\ (finding c -> s_am s = true)
  | P_unexp e => storing c /\ call_key c = Some (kof e) /\ s_rd s !! kof e = Some e
  | P_swap e =>
      swapping c /\ call_key c = Some (kof e) /\ e < s_next s /\ emap s !! kof e = Some e /\
      s_ent s e <> SExp
  | P_dl _ | P_amend => storing c /\ exists k, call_key c = Some k /\ s_rd s !! k = None
  | P_dlx k e todo | P_dlc k e todo =>
      storing c /\ todo !! k = None /\ exists k, call_key c = Some k /\ s_rd s !! k = None
  | P_new =>
      storing c /\ s_am s = true /\
      exists k, call_key c = Some k /\ s_rd s !! k = None /\ dirty_map s !! k = None
  | P_miss _ => s_am s = true /\ c <> CLen
  | P_un _ | P_len _ _ => c <> CLen
  | P_une None => finding c
  | P_une (Some e) => finding c /\ call_key c = Some (kof e) /\ e < s_next s
  | P_prom => range_call c /\ s_am s = true
  | P_clr | P_clr2 => c = CClear
  | P_unr m | R_next m _ => range_call c /\ mapok kof (s_next s) m
  | R_call k _ m _ => range_call c /\ mapok kof (s_next s) m /\ m !! k = None
  | R_load k e m _ => range_call c /\ mapok kof (s_next s) (<[k := e]> m) /\ m !! k = None
  | E_load e m => call_key c = Some (kof e) /\ e < s_next s /\ mode_ok c e m s kof
  | E_cas e x m => call_key c = Some (kof e) /\ e < s_next s /\ mode_ok c e m s kof /\ cas_ok c x
  | P_getlen => c = CLen
  | X_ret r => c = CLen -> exists n, r = RInt n
  end.

(** ** The invariant *)
Record core (s : shared) (thr : gmap nat (call * pc)) (h : list hitem) (kof : nat -> K)
    (m : gmap K V) : Prop := mk_core {
  i_run : hrun a_new h (mk_astate m (stat <$> thr));
  i_map : forall k, m !! k = emap s !! k ≫= (fun e => slot_val (s_ent s e));
  i_s : sinv (the_phase s thr) s kof;
  i_pc : forall t c p, thr !! t = Some (c, p) -> pcinv c p s kof;
  i_lock : forall t c p, thr !! t = Some (c, p) -> (locked p = true <-> s_lock s = Some t);
  i_lock2 : forall t, s_lock s = Some t -> is_Some (thr !! t);
  (* entries in the map are under no mark *)
  i_cur : forall e, e < s_next s -> emap s !! kof e = Some e ->
    forall i k, i ∈ h -> orphs i !! k <> Some e;
  i_bound : forall i k e, i ∈ h -> orphs i !! k = Some e -> e < s_next s;
  (* other entries are under one mark, with their value just before it *)
  i_orph : forall e, e < s_next s -> emap s !! kof e <> Some e ->
    exists h1 i h2 a1, h = h1 ++ i :: h2 /\ hrun a_new h1 a1 /\
      orphs i !! kof e = Some e /\
      (forall j k, j ∈ h1 ++ h2 -> orphs j !! k <> Some e) /\
      a_map a1 !! kof e = slot_val (s_ent s e) /\
      (forall os, i = HMark os -> s_ent s e = SExp) /\
      (forall t c p, thr !! t = Some (c, p) -> holds p e -> quiet t (i :: h2)) /\
      (forall t c p, thr !! t = Some (c, p) -> rholds p e -> rquiet t (kof e) (i :: h2));
  (* an entry taken out by a LoadAndDelete has a value only as long as that call is at it *)
  i_del : forall h1 k e td h2, h = h1 ++ HDel k e td :: h2 ->
    e < s_next s /\ kof e = k /\ emap s !! kof e <> Some e /\
    (forall t c p, thr !! t = Some (c, p) -> holds p e -> ~ writer c) /\
    (slot_val (s_ent s e) = None \/
     exists c p, thr !! td = Some (c, p) /\ deleting c /\ call_key c = Some k /\ holds p e /\
       quiet td h2 /\ (forall k' e', HDel k' e' td ∉ h2)) }.


(** ** Runs *)
Lemma hrun_app a l1 l2 a' :
  hrun a (l1 ++ l2) a' <-> exists a1, hrun a l1 a1 /\ hrun a1 l2 a'.
Proof.
  revert a. induction l1 as [|h l1 IH]; intros a; cbn.
  - split; [intros Hr; by exists a | by intros (a1 & -> & Hr)].
  - split.
    + intros (a1 & Hh & Hr). apply IH in Hr as (a2 & Hr1 & Hr2). exists a2. split; [|done]. by exists a1.
    + intros (a2 & (a1 & Hh & Hr1) & Hr2). exists a1. split; [done|]. apply IH. by exists a2.
Qed.

Lemma hstep_det a h a1 a2 : hstep a h a1 -> hstep a h a2 -> a1 = a2.
Proof.
  destruct h as [i|t os|k e t|os]; cbn; [|naive_solver..].
  destruct i; cbn; try naive_solver.
Qed.

Lemma hrun_det a l a1 a2 : hrun a l a1 -> hrun a l a2 -> a1 = a2.
Proof.
  revert a. induction l as [|h l IH]; intros a; cbn; [by intros -> ->|].
  intros (b1 & Hb1 & Hr1) (b2 & Hb2 & Hr2). assert (b1 = b2) as -> by eauto using hstep_det. eauto.
Qed.

Definition upd (t : nat) (y : status) (a : astate) : astate :=
  mk_astate (a_map a) (<[t := y]> (a_st a)).

(** A change of the status of [t] passes over items that are not of [t]. *)
Lemma hstep_upd t y a h a' :
  own h <> Some t -> hstep a h a' ->
  hstep (upd t y a) h (upd t y a') /\ a_st a' !! t = a_st a !! t.
Proof.
  intros Ho Hs. destruct h as [i|u os|k e u|os]; cbn in *.
  - assert (Hne : item_thr i <> t) by congruence. clear Ho.
    destruct i as [u c|u r|u k v b|u|u ks|u k|u]; cbn in *.
    + destruct Hs as [Hn ->]. cbn. unfold upd. cbn. rewrite lookup_insert_ne by done.
      split; [split; [done|]|by rewrite lookup_insert_ne]. by rewrite insert_commute.
    + destruct Hs as [-> Hs]. unfold upd. cbn.
      split; [split; [by rewrite delete_insert_ne|]|by rewrite lookup_delete_ne].
      by rewrite lookup_insert_ne.
    + destruct Hs as (c & ks & vis & n & Hst & Hv & Hb & ->). unfold upd. cbn.
      split; [|by rewrite lookup_insert_ne].
      exists c, ks, vis, n. rewrite lookup_insert_ne by done. split_and!; try done.
      by rewrite insert_commute.
    + destruct Hs as (c & Hst & Hc & ->). unfold upd. cbn. split; [|by rewrite lookup_insert_ne].
      exists c. rewrite lookup_insert_ne by done. split_and!; try done. by rewrite insert_commute.
    + destruct Hs as (c & Hst & Hc & Hd & ->). unfold upd. cbn. split; [|by rewrite lookup_insert_ne].
      exists c. rewrite lookup_insert_ne by done. split_and!; try done. by rewrite insert_commute.
    + destruct Hs as (c & ks & vis & n & Hst & Hk & ->). unfold upd. cbn.
      split; [|by rewrite lookup_insert_ne].
      exists c, ks, vis, n. rewrite lookup_insert_ne by done. split_and!; try done.
      by rewrite insert_commute.
    + destruct Hs as (c & n & Hst & ->). unfold upd. cbn. split; [|by rewrite lookup_insert_ne].
      exists c, n. rewrite lookup_insert_ne by done. split_and!; try done. by rewrite insert_commute.
  - assert (u <> t) by congruence. destruct Hs as [Hst ->]. unfold upd. cbn.
    split; [|by rewrite lookup_insert_ne]. rewrite lookup_insert_ne by done. split; [done|].
    by rewrite insert_commute.
  - by subst a'.
  - by subst a'.
Qed.

Lemma hrun_upd t y a l a' :
  quiet t l -> hrun a l a' ->
  hrun (upd t y a) l (upd t y a') /\ a_st a' !! t = a_st a !! t.
Proof.
  revert a. induction l as [|h l IH]; intros a Hq; cbn; [by intros ->|].
  intros (a1 & Hs & Hr).
  assert (Ho : own h <> Some t) by (apply Hq; left).
  apply (hstep_upd t y) in Hs as [Hs He]; [|done].
  apply IH in Hr as [Hr He2]; [|intros h' Hh'; apply Hq; by right].
  split; [by exists (upd t y a1)|]. by rewrite He2.
Qed.

(** A Range that looks at [k] earlier. *)
Definition see (t : nat) (k : K) (ov : option V) (a : astate) : astate :=
  match a_st a !! t with
  | Some (AIter c ks vis n) =>
      upd t (AIter c (ks ∖ {[k]}) (match ov with Some v => <[k := v]> vis | None => vis end) n) a
  | _ => a
  end.

Definition ranging (t : nat) (k : K) (a : astate) : Prop :=
  exists c ks vis n, a_st a !! t = Some (AIter c ks vis n) /\ k ∈ ks.

Lemma hstep_back t k a h a' :
  (own h = Some t -> exists k', k' <> k /\ (h = HI (ISee t k') \/ exists v, h = HI (ICall t k' v true))) ->
  hstep a h a' -> ranging t k a' -> ranging t k a.
Proof.
  intros Ho Hs Hr. destruct (decide (own h = Some t)) as [Hh|Hh].
  - destruct (Ho Hh) as (k' & Hk & [-> | [v ->]]); cbn in Hs.
    + destruct Hs as (c & ks & vis & n & Hst & Hin & ->). destruct Hr as (c1 & ks1 & vis1 & n1 & Hst1 & Hin1).
      cbn in Hst1. rewrite lookup_insert in Hst1. injection Hst1 as <- <- <- <-.
      exists c, ks, vis, n. split; [done|]. set_solver.
    + destruct Hs as (c & ks & vis & n & Hst & Hin & _ & ->).
      destruct Hr as (c1 & ks1 & vis1 & n1 & Hst1 & Hin1).
      cbn in Hst1. rewrite lookup_insert in Hst1. injection Hst1 as <- <- <- <-.
      exists c, ks, vis, n. by split.
  - destruct Hr as (c & ks & vis & n & Hst & Hin). exists c, ks, vis, n. split; [|done].
    rewrite <- Hst. symmetry. by apply (hstep_upd t (AInv_ CClear) a h a').
Qed.

Lemma hrun_back t k a l a' :
  rquiet t k l -> hrun a l a' -> ranging t k a' -> ranging t k a.
Proof.
  revert a. induction l as [|h l IH]; intros a Hq; cbn; [by intros ->|].
  intros (a1 & Hs & Hr) Hk.
  apply (hstep_back t k a h a1); [intros Ho; apply Hq; [left|done]|done|].
  apply IH; [intros h' Hh'; apply Hq; by right|done|done].
Qed.

Lemma hstep_see t k ov a h a' :
  (own h = Some t -> exists k', k' <> k /\ (h = HI (ISee t k') \/ exists v, h = HI (ICall t k' v true))) ->
  hstep a h a' -> ranging t k a ->
  hstep (see t k ov a) h (see t k ov a').
Proof.
  intros Ho Hs (c0 & ks0 & vis0 & n0 & Hst0 & Hin0). destruct (decide (own h = Some t)) as [Hh|Hh].
  - destruct (Ho Hh) as (k' & Hk & [-> | [v ->]]); cbn in Hs |- *.
    + destruct Hs as (c & ks & vis & n & Hst & Hin & ->). rewrite Hst0 in Hst. injection Hst as <- <- <- <-. unfold see. rewrite Hst0. cbn.
      rewrite lookup_insert. unfold upd. cbn. do 4 eexists. rewrite lookup_insert. split; [done|].
      split; [set_solver|]. rewrite !insert_insert. do 3 f_equal; [set_solver|].
      destruct (a_map a !! k') as [v'|], ov as [v|]; try done. by rewrite insert_commute.
    + destruct Hs as (c & ks & vis & n & Hst & Hin & Hb & ->). rewrite Hst0 in Hst. injection Hst as <- <- <- <-. unfold see. rewrite Hst0. cbn.
      rewrite lookup_insert. unfold upd. cbn.
      exists c0, (ks0 ∖ {[k]}), (match ov with Some w => <[k := w]> vis0 | None => vis0 end), n0.
      rewrite lookup_insert. split; [done|].
      split; [destruct ov; [by rewrite lookup_insert_ne|done]|]. split; [done|].
      rewrite !insert_insert. do 3 f_equal. destruct ov; [|done]. by rewrite delete_insert_ne.
  - unfold see. rewrite Hst0.
    edestruct (hstep_upd t) as [Hs' He]; [exact Hh|exact Hs|]. rewrite He, Hst0. exact Hs'.
Qed.

Lemma hstep_ranging t k a h a' :
  (own h = Some t -> exists k', k' <> k /\ (h = HI (ISee t k') \/ exists v, h = HI (ICall t k' v true))) ->
  hstep a h a' -> ranging t k a -> ranging t k a'.
Proof.
  intros Ho Hs (c0 & ks0 & vis0 & n0 & Hst0 & Hin0). destruct (decide (own h = Some t)) as [Hh|Hh].
  - destruct (Ho Hh) as (k' & Hk & [-> | [v ->]]); cbn in Hs |- *.
    + destruct Hs as (c & ks & vis & n & Hst & Hin & ->). rewrite Hst0 in Hst. injection Hst as <- <- <- <-. do 4 eexists. cbn.
      rewrite lookup_insert. split; [done|]. set_solver.
    + destruct Hs as (c & ks & vis & n & Hst & Hin & Hb & ->). rewrite Hst0 in Hst. injection Hst as <- <- <- <-. do 4 eexists. cbn.
      rewrite lookup_insert. by split.
  - exists c0, ks0, vis0, n0. split; [|done]. rewrite <- Hst0.
    by apply (hstep_upd t (AInv_ CClear) a h a').
Qed.

Lemma hrun_see t k ov a l a' :
  rquiet t k l -> hrun a l a' -> ranging t k a -> hrun (see t k ov a) l (see t k ov a').
Proof.
  revert a. induction l as [|h l IH]; intros a Hq; cbn; [by intros ->|].
  intros (a1 & Hs & Hr) Hk.
  assert (Ho : own h = Some t -> exists k', k' <> k /\ (h = HI (ISee t k') \/ exists v, h = HI (ICall t k' v true)))
    by (intros Ho; apply Hq; [left|done]).
  exists (see t k ov a1). split; [by apply hstep_see|].
  apply IH; [intros h' Hh'; apply Hq; by right|done|]. by eapply hstep_ranging.
Qed.

Lemma see_map t k ov a : a_map (see t k ov a) = a_map a.
Proof. unfold see. destruct (a_st a !! t) as [[]|]; done. Qed.

(** Two ways of cutting a list at an element. *)
Lemma app_cut {A} (l1 : list A) x l2 m1 y m2 :
  l1 ++ x :: l2 = m1 ++ y :: m2 ->
  (l1 = m1 /\ x = y /\ l2 = m2) \/
  (exists u, m1 = l1 ++ x :: u /\ l2 = u ++ y :: m2) \/
  (exists u, l1 = m1 ++ y :: u /\ m2 = u ++ x :: l2).
Proof.
  revert m1. induction l1 as [|z l1 IH]; intros [|w m1]; cbn; intros E.
  - injection E as -> ->. by left.
  - injection E as -> E. right; left. exists m1. by rewrite E.
  - injection E as -> <-. right; right. by exists l1.
  - injection E as -> E. destruct (IH m1 E) as [(-> & -> & ->)|[(u & -> & ->)|(u & -> & ->)]].
    + by left.
    + right; left. by exists u.
    + right; right. by exists u.
Qed.

End inv.
