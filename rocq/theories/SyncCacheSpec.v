(** What synccache should do.

    The history of a run: the cache's code working on a plain map that every call of it acts on at one
    moment (RwMapSpec.v), with all moments in one order. *)
From Verif Require Import Base RwMapModel RwMapSpec SyncCacheModel.
Local Open Scope Z_scope.

Section spec.
Context {K : Type} `{Countable K} {V : Type}.
Context (deref : nat -> nat) (veq : V -> V -> option bool) (has_cb : bool).
Local Notation scall := (scall K V).
Local Notation spc := (spc K).
Local Notation sev := (sev K V).
Local Notation sact := (sact K V).
Local Notation cstate := (cstate K V).
Local Notation astate := (astate K nat).
Local Notation item := (item K nat).
Local Notation world := (world K V).

(** ** Histories *)
(** A step of a history: of the plain map, or of the cache's code. *)
Inductive mlab : Type := MItem (i : item) | MLoc (a : sact).
(** With what is observed. *)
Definition mev : Type := mlab * list sev.
Definition trace (h : list mev) : list sev := h ≫= snd.

Record mstate : Type := mk_m { m_cl : cstate; m_map : astate }.
Definition m_init : mstate := mk_m c_init a_new.
(** The entry of every key. *)
Definition map_of (m : mstate) : gmap K nat := a_map (m_map m).

Definition mstep (m : mstate) (x : mev) (m' : mstate) : Prop :=
  match x with
  | (MItem i, ev) =>
      ev = [] /\ astep deref peq (m_map m) i (m_map m') /\
      match visible i with
      | [] => m_cl m' = m_cl m
      | e :: _ => cl_map deref has_cb (m_cl m) e = Some (m_cl m')
      end
  | (MLoc a, ev) =>
      cl_loc veq has_cb (m_cl m) a = Some (m_cl m', ev) /\ m_map m' = m_map m
  end.

Fixpoint mrun (m : mstate) (h : list mev) (m' : mstate) : Prop :=
  match h with
  | [] => m' = m
  | x :: h => exists m1, mstep m x m1 /\ mrun m1 h m'
  end.

(** A history explains a run: it shows the same observations, and ends in the same state. *)
Definition explains (h : list mev) (w : world) (tr : list sev) : Prop :=
  exists m, mrun m_init h m /\ trace h = tr /\ m_cl m = w_cl w /\ map_of m = contents deref (c_sh (w_map w)).

(** At a moment of the stretch [h2] that follows [h1], the key [k] has the entry [o]. *)
Definition seen (h1 h2 : list mev) (k : K) (o : option nat) : Prop :=
  exists g1 g2 m, h2 = g1 ++ g2 /\ mrun m_init (h1 ++ g1) m /\ map_of m !! k = o.

(** In the step [x], which follows [h1], the entry of [k] changes from [o1] to [o2]. *)
Definition changes (h1 : list mev) (x : mev) (k : K) (o1 o2 : option nat) : Prop :=
  exists m1 m2, mrun m_init h1 m1 /\ mstep m1 x m2 /\ map_of m1 !! k = o1 /\ map_of m2 !! k = o2.

(** The goroutine whose call takes effect. *)
Definition by_ (x : mev) : option nat :=
  match x.1 with MItem (ILin u) => Some (Nat.div2 u) | _ => None end.

(** Goroutine [t] of the event. *)
Definition ev_thr (ev : sev) : option nat :=
  match ev with
  | SInv t _ | SRet t _ | SClock t _ | SNew t _ _ _ | SChk t _ _ _ | SDel t _ _ | SUse t _ _ _ => Some t
  | SSet _ _ | SAdd _ _ => None
  end.

(** [h] ends inside the call [c] of [t], which began after [h1] and did [h2] so far. *)
Definition in_call (h : list mev) (t : nat) (c : scall) (h1 h2 : list mev) : Prop :=
  h = h1 ++ (MLoc (KInv t c), [SInv t c]) :: h2 /\
  (forall c', SInv t c' ∉ trace h2) /\ (forall r, SRet t r ∉ trace h2).

(** The beginning of a call. *)
Definition inv_of (t : nat) (c : scall) : mev := (MLoc (KInv t c), [SInv t c]).

(** Whenever a call returns, [P] holds of it: the history before it, what it did, the goroutine, the
    call, and the result. *)
Definition every_call (h : list mev) (P : list mev -> list mev -> nat -> scall -> sres -> Prop) : Prop :=
  forall g1 x g2 t r, h = g1 ++ x :: g2 -> SRet t r ∈ x.2 ->
    exists c h1 h2, in_call g1 t c h1 h2 /\ P (h1 ++ [inv_of t c]) h2 t c r.

(** ** What a call of one key did *)
(** During the stretch [h2], which follows [h1], goroutine [t] ... *)
(** ... took the entry [e] of [k] out of the map; *)
Definition removed (h1 h2 : list mev) (t : nat) (k : K) (e : nat) : Prop :=
  exists g1 x g2, h2 = g1 ++ x :: g2 /\ changes (h1 ++ g1) x k (Some e) None /\ by_ x = Some t.
(** ... made the entry [e] with value [v] and duration [d], by a reading of the clock; *)
Definition made (h2 : list mev) (t : nat) (e : nat) (v : V) (d : Z) : Prop :=
  exists n, SClock t n ∈ trace h2 /\ SNew t e v (ms (n + d)) ∈ trace h2.
(** ... read the clock and found the entry not expired, or expired. *)
Definition found_live (h2 : list mev) (t : nat) (e : nat) : Prop :=
  exists n x, SClock t n ∈ trace h2 /\ SChk t e (ms n) x ∈ trace h2 /\ ms n <= x.
Definition found_expired (h2 : list mev) (t : nat) (e : nat) : Prop :=
  exists n x, SClock t n ∈ trace h2 /\ SChk t e (ms n) x ∈ trace h2 /\ x < ms n.
(** The value of an entry. *)
Definition has_value (h : list mev) (e : nat) (v : V) : Prop := exists t x, SNew t e v x ∈ trace h.

(** What the result [r] of the call [c] says about the moments [h2] of the call, which began after [h1]. *)
Definition answers (h1 h2 : list mev) (t : nat) (c : scall) (r : sres) : Prop :=
  let at_some_moment := seen h1 h2 in
  match c, r with
  | SStore k v d, SUnit => exists e, made h2 t e v d /\ at_some_moment k (Some e)
  | SLoad k, SEnt e true => at_some_moment k (Some e) /\ found_live h2 t e
  | SLoad k, SNone =>
      at_some_moment k None \/ exists e, at_some_moment k (Some e) /\ found_expired h2 t e
  | SLoadOrStore k v d, SEnt e true =>
      at_some_moment k (Some e) /\
      (found_live h2 t e \/ (found_expired h2 t e /\ exists o, o <> Some e /\ at_some_moment k o))
  | SLoadOrStore k v d, SEnt e false =>
      made h2 t e v d /\ at_some_moment k None /\ at_some_moment k (Some e)
  | SDelete k, SUnit => at_some_moment k None
  | SLoadAndDelete k, SEnt e true => removed h1 h2 t k e /\ found_live h2 t e
  | SLoadAndDelete k, SNone =>
      at_some_moment k None /\ forall e, removed h1 h2 t k e -> found_expired h2 t e
  | SCad k e, SBool true => removed h1 h2 t k e
  | SCad k e, SBool false => exists o, o <> Some e /\ at_some_moment k o
  | SCvad k v, SBool true =>
      exists e v', removed h1 h2 t k e /\ found_live h2 t e /\ has_value (h1 ++ h2) e v' /\ veq v v' = Some true
  | SCvad k v, SBool false =>
      at_some_moment k None \/
      exists e, at_some_moment k (Some e) /\
        (found_expired h2 t e \/
         (exists v', has_value (h1 ++ h2) e v' /\ veq v v' = Some false) \/
         (exists o, o <> Some e /\ at_some_moment k o))
  | SCvad k v, SPanic =>
      exists e v', at_some_moment k (Some e) /\ has_value (h1 ++ h2) e v' /\ veq v v' = None
  | (SClear | SRange | STrim), SUnit => True
  | _, _ => False
  end.

(** ** What Range, trim and Clear did *)
(** The entry [e] of [k] stayed in the map during all of [h2]. *)
Definition throughout (h1 h2 : list mev) (k : K) (e : nat) : Prop := forall o, seen h1 h2 k o -> o = Some e.
(** The keys handed to the f of Range. *)
Definition used (t : nat) (tr : list sev) : list K :=
  tr ≫= (fun ev => match ev with SUse t' k _ _ => if decide (t' = t) then [k] else [] | _ => [] end).

Definition swept (h1 h2 : list mev) (t : nat) (c : scall) : Prop :=
  match c with
  | SRange =>
      (* no key twice; what is handed to f was there and not expired; *)
      NoDup (used t (trace h2)) /\
      (forall k e b, SUse t k e b ∈ trace h2 -> seen h1 h2 k (Some e) /\ found_live h2 t e) /\
      (* only expired entries are taken out; *)
      (forall k e, removed h1 h2 t k e -> found_expired h2 t e) /\
      (* if f never stops it, every entry that stayed is handed to f. *)
      ((exists k e, SUse t k e false ∈ trace h2) \/
       forall k e, throughout h1 h2 k e -> SUse t k e true ∈ trace h2)
  | STrim =>
      (* One clock reading; what is taken out had expired by it, what stayed had not. *)
      exists n, (forall n', SClock t n' ∈ trace h2 <-> n' = n) /\
        (forall k e, removed h1 h2 t k e -> exists x, SChk t e (ms n) x ∈ trace h2 /\ x < ms n) /\
        (forall k e, throughout h1 h2 k e -> exists x, SChk t e (ms n) x ∈ trace h2 /\ ms n <= x)
  | SClear =>
      (* No entry stayed; without deletedCallback all are taken out at one moment. *)
      (forall k e, ~ throughout h1 h2 k e) /\
      (has_cb = false -> exists g1 g2 m, h2 = g1 ++ g2 /\ mrun m_init (h1 ++ g1) m /\ map_of m = ∅)
  | _ => True
  end.

(** Entry [e] was handed to deletedCallback. *)
Definition called_back (tr : list sev) (e : nat) : Prop := exists t v, SDel t e v ∈ tr.
Definition times_called_back (tr : list sev) (e : nat) : nat :=
  length (tr ≫= (fun ev => match ev with SDel t e' _ => if decide (e' = e) then [t] else [] | _ => [] end)).

(** ** The expiration of an entry *)
(** After what was observed: set when the entry is made, then moved by SetExpiration and
    AddExpiration.  Milliseconds. *)
Fixpoint expiration (e : nat) (x : option Z) (tr : list sev) : option Z :=
  match tr with
  | [] => x
  | ev :: tr =>
      expiration e
        (match ev with
         | SNew _ e' _ x' => if decide (e' = e) then Some x' else x
         | SSet e' at_ => if decide (e' = e) then Some (ms at_) else x
         | SAdd e' d => if decide (e' = e) then (fun x => x + Z.quot d 1000000) <$> x else x
         | _ => x
         end) tr
  end.

(** No call of [t] begins or ends. *)
Definition within (t : nat) (tr : list sev) : Prop := (forall c, SInv t c ∉ tr) /\ (forall r, SRet t r ∉ tr).
(** During [tr2], which follows [tr1], goroutine [t] compares its reading [n] of the clock with the
    expiration [x] that the entry [e] has then. *)
Definition compares (tr1 tr2 : list sev) (t e : nat) (n x : Z) : Prop :=
  exists a b, tr2 = a ++ SChk t e (ms n) x :: b /\ SClock t n ∈ a /\ expiration e None (tr1 ++ a) = Some x.

(** The same in histories. *)
Definition compared_at (h1 h2 : list mev) (t e : nat) (n x : Z) : Prop := compares (trace h1) (trace h2) t e n x.

(** SetExpiration or AddExpiration of [e]. *)
Definition shifts (e : nat) (ev : sev) : Prop := (exists at_, ev = SSet e at_) \/ (exists d, ev = SAdd e d).

(** Load and LoadAndDelete return the entry unless it has expired. *)
Definition looks_up (c : scall) : Prop := match c with SLoad _ | SLoadAndDelete _ => True | _ => False end.
Definition answer_of (e : nat) (n x : Z) : sres := if x <? n then SNone else SEnt e true.

(** ** Sequential use *)
(** The calls do not overlap, the clock does not go backwards, and nobody moves an expiration. *)
Fixpoint sequential (busy : bool) (now : Z) (tr : list sev) : Prop :=
  match tr with
  | [] => True
  | SInv _ _ :: tr => busy = false /\ sequential true now tr
  | SRet _ _ :: tr => sequential false now tr
  | SClock _ n :: tr => now <= n /\ sequential busy n tr
  | SSet _ _ :: _ | SAdd _ _ :: _ => False
  | _ :: tr => sequential busy now tr
  end.

(** The specification: a map from keys to entries with value and expiration.  At time [now] it shows
    the entries that have not expired.  [sp_ids]: the entries made so far. *)
Record sentry : Type := mk_sentry { n_id : nat; n_val : V; n_exp : Z }.
Record sp : Type := mk_sp { sp_map : gmap K sentry; sp_ids : gset nat; sp_now : Z }.
Definition shown (s : sp) (k : K) : option sentry :=
  match sp_map s !! k with
  | Some n => if n_exp n <? ms (sp_now s) then None else Some n
  | None => None
  end.

(** The effect and result of a call that returns, at the time of the last clock reading; [used]: the
    pairs handed to f, with its results.  [strict]: CompareAndDelete on an entry that has expired
    fails. *)
Definition sp_put (k : K) (v : V) (d : Z) (e : nat) (s : sp) : sp :=
  mk_sp (<[k := mk_sentry e v (ms (sp_now s + d))]> (sp_map s)) ({[e]} ∪ sp_ids s) (sp_now s).
Definition sp_del (k : K) (s : sp) : sp := mk_sp (delete k (sp_map s)) (sp_ids s) (sp_now s).
Definition sp_clear (s : sp) : sp := mk_sp ∅ (sp_ids s) (sp_now s).

Definition sp_call (strict : bool) (c : scall) (used : list (K * nat * bool)) (s : sp) (r : sres) (s' : sp) : Prop :=
  match c with
  | SStore k v d => r = SUnit /\ exists e, e ∉ sp_ids s /\ s' = sp_put k v d e s
  | SLoad k => r = match shown s k with Some n => SEnt (n_id n) true | None => SNone end /\ s' = s
  | SLoadOrStore k v d =>
      match shown s k with
      | Some n => r = SEnt (n_id n) true /\ s' = s
      | None => exists e, e ∉ sp_ids s /\ r = SEnt e false /\ s' = sp_put k v d e s
      end
  | SDelete k => r = SUnit /\ s' = sp_del k s
  | SLoadAndDelete k =>
      r = match shown s k with Some n => SEnt (n_id n) true | None => SNone end /\ s' = sp_del k s
  | SCad k e =>
      match shown s k with
      | Some n => if decide (n_id n = e) then r = SBool true /\ s' = sp_del k s else r = SBool false /\ s' = s
      | None =>
          (r = SBool false /\ s' = s) \/
          (strict = false /\ (exists n, sp_map s !! k = Some n /\ n_id n = e) /\ r = SBool true /\ s' = sp_del k s)
      end
  | SCvad k v =>
      match shown s k with
      | Some n =>
          match veq v (n_val n) with
          | Some true => r = SBool true /\ s' = sp_del k s
          | Some false => r = SBool false /\ s' = s
          | None => r = SPanic /\ s' = s
          end
      | None => r = SBool false /\ s' = s
      end
  | SClear => r = SUnit /\ s' = sp_clear s
  | SRange =>
      r = SUnit /\ s' = s /\
      (* if f never stopped it, every entry shown at the end was used *)
      ((forall k e, (k, e, false) ∉ used) -> forall k n, shown s k = Some n -> (k, n_id n, true) ∈ used)
  | STrim => r = SUnit /\ s' = s
  end.

(** The observations a sequential use may make; [cur]: the call in progress, and what f was handed. *)
Definition sp_cur : Type := option (nat * scall * list (K * nat * bool)).
Definition sp_step (strict : bool) (s : sp) (cur : sp_cur) (ev : sev) (s' : sp) (cur' : sp_cur) : Prop :=
  match ev with
  | SInv t c => cur = None /\ s' = s /\ cur' = Some (t, c, [])
  | SRet t r => exists c us, cur = Some (t, c, us) /\ sp_call strict c us s r s' /\ cur' = None
  | SClock _ n => s' = mk_sp (sp_map s) (sp_ids s) n /\ cur' = cur
  | SUse t k e b =>
      (* f gets entries shown at that time, no key twice, and nothing after it returned false *)
      exists us n, cur = Some (t, SRange, us) /\ shown s k = Some n /\ n_id n = e /\
        k ∉ us.*1.*1 /\ false ∉ us.*2 /\ s' = s /\ cur' = Some (t, SRange, us ++ [(k, e, b)])
  | SNew _ _ _ _ | SChk _ _ _ _ | SDel _ _ _ => s' = s /\ cur' = cur   (* not part of what the map shows *)
  | SSet _ _ | SAdd _ _ => False
  end.
Fixpoint sp_run (strict : bool) (s : sp) (cur : sp_cur) (tr : list sev) (s' : sp) (cur' : sp_cur) : Prop :=
  match tr with
  | [] => s' = s /\ cur' = cur
  | ev :: tr => exists s1 cur1, sp_step strict s cur ev s1 cur1 /\ sp_run strict s1 cur1 tr s' cur'
  end.

Definition sp_init (now : Z) : sp := mk_sp ∅ ∅ now.

End spec.

Arguments mlab K {_ _} V.
Arguments mev K {_ _} V.
Arguments mstate K {_ _} V.
Arguments sp K {_ _} V.

(** The goroutine that makes a step. *)
Definition gor_of {K} `{Countable K} {V} (x : wact K V) : option nat :=
  match x with
  | XLoc (KInv t _ | KLoc t _ | KBeg t _ _) | XBeg t => Some t
  | XLoc _ => None
  | XMap (AInv u _ | AStep u _) => Some (Nat.div2 u)
  end.
