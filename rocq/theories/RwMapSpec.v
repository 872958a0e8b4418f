(** What rwmap should do: a plain map on which every call acts at one moment. *)
From Verif Require Import Base RwMapModel.

Section spec.
Context {K : Type} `{Countable K} {V : Type}.
Context (deref : nat -> V) (veq : V -> V -> option bool).
Local Notation call := (call K V).
Local Notation result := (result V).
Local Notation event := (event K V).

(** ** The plain map: the result of a call and the map afterwards *)
Definition seq_res (m : gmap K V) (c : call) : result :=
  match c with
  | CLoad k => RVal (m !! k)
  | CStore _ _ => RUnit
  | CSwap k _ => RVal (m !! k)
  | CLoadOrStore k p => match m !! k with Some v => RLos v true | None => RLos (deref p) false end
  | CLoadAndDelete k => RVal (m !! k)
  | CDelete _ => RUnit
  | CCas k old _ | CCad k old =>
      match m !! k with
      | Some v => match veq v old with Some b => RBool b | None => RPanic end
      | None => RBool false
      end
  | CClear => RUnit
  | CRange | CSlowLen | CLen => RPanic
  end.

Definition seq_next (m : gmap K V) (c : call) : gmap K V :=
  match c with
  | CStore k p | CSwap k p => <[k := deref p]> m
  | CLoadOrStore k p => match m !! k with Some _ => m | None => <[k := deref p]> m end
  | CLoadAndDelete k | CDelete k => delete k m
  | CCas k old p =>
      match m !! k with
      | Some v => match veq v old with Some true => <[k := deref p]> m | _ => m end
      | None => m
      end
  | CCad k old =>
      match m !! k with
      | Some v => match veq v old with Some true => delete k m | _ => m end
      | None => m
      end
  | CClear => ∅
  | CLoad _ | CRange | CSlowLen | CLen => m
  end.

(** Calls that take effect at one moment; Range and SlowLen look at one key after the other, and
    Len reads a counter. *)
Definition atomic_call (c : call) : Prop :=
  match c with CRange | CSlowLen | CLen => False | _ => True end.
Definition range_call (c : call) : Prop :=
  match c with CRange | CSlowLen => True | _ => False end.

(** ** The atomic object *)
(** Where a goroutine is: its call has not taken effect; it has, with this result; it is ranging:
    the keys [ks] are still to be looked at, the pairs [vis] were seen but not handed to the
    callback yet, [n] callbacks were made.  No entry: it is not in a call. *)
Inductive status : Type :=
| AInv_ (c : call)
| ADone (c : call) (r : result)
| AIter (c : call) (ks : gset K) (vis : gmap K V) (n : Z).

Record astate : Type := mk_astate { a_map : gmap K V; a_st : gmap nat status }.

(** What happens to the object: what is observed (a call, a return, a callback) and the moments in
    between: a call takes effect; a Range fixes the keys it will look at (at least those in the
    map); it looks at one of them; it finds none left. *)
Inductive item : Type :=
| IInv (t : nat) (c : call)
| IRet (t : nat) (r : result)
| ICall (t : nat) (k : K) (v : V) (b : bool)
| ILin (t : nat)
| ISnap (t : nat) (ks : gset K)
| ISee (t : nat) (k : K)
| IEnd (t : nat).

Definition astep (a : astate) (i : item) (a' : astate) : Prop :=
  match i with
  | IInv t c => a_st a !! t = None /\ a' = mk_astate (a_map a) (<[t := AInv_ c]> (a_st a))
  | IRet t r =>
      a' = mk_astate (a_map a) (delete t (a_st a)) /\
      ((exists c, a_st a !! t = Some (ADone c r)) \/
       (exists n, r = RInt n /\ a_st a !! t = Some (AInv_ CLen)))   (* nothing is said about Len *)
  | ICall t k v b =>
      exists c ks vis n, a_st a !! t = Some (AIter c ks vis n) /\ vis !! k = Some v /\
        (b = false -> c = CRange) /\
        a' = mk_astate (a_map a)
               (<[t := if b then AIter c ks (delete k vis) (n + 1) else ADone c RUnit]> (a_st a))
  | ILin t =>
      exists c, a_st a !! t = Some (AInv_ c) /\ atomic_call c /\
        a' = mk_astate (seq_next (a_map a) c) (<[t := ADone c (seq_res (a_map a) c)]> (a_st a))
  | ISnap t ks =>
      exists c, a_st a !! t = Some (AInv_ c) /\ range_call c /\ dom (a_map a) ⊆ ks /\
        a' = mk_astate (a_map a) (<[t := AIter c ks ∅ 0]> (a_st a))
  | ISee t k =>
      exists c ks vis n, a_st a !! t = Some (AIter c ks vis n) /\ k ∈ ks /\
        a' = mk_astate (a_map a)
               (<[t := AIter c (ks ∖ {[k]})
                         (match a_map a !! k with Some v => <[k := v]> vis | None => vis end) n]> (a_st a))
  | IEnd t =>
      exists c n, a_st a !! t = Some (AIter c ∅ ∅ n) /\
        a' = mk_astate (a_map a)
               (<[t := ADone c (match c with CSlowLen => RInt n | _ => RUnit end)]> (a_st a))
  end.

Fixpoint arun (a : astate) (l : list item) (a' : astate) : Prop :=
  match l with
  | [] => a' = a
  | i :: l => exists a1, astep a i a1 /\ arun a1 l a'
  end.

(** What an observer sees. *)
Definition visible (i : item) : list event :=
  match i with
  | IInv t c => [EInv t c]
  | IRet t r => [ERet t r]
  | ICall t k v b => [ECall t k v b]
  | _ => []
  end.
Definition observed (l : list item) : list event := l ≫= visible.

Definition a_new : astate := mk_astate ∅ ∅.

(** A trace is linearizable if it is what an observer sees of some run of the atomic object: in
    that run every call takes effect between its invocation and its return, and its result is the
    one the plain map gives at that moment. *)
Definition linearizable (tr : list event) : Prop :=
  exists l a, arun a_new l a /\ observed l = tr.

(** ** What Range and SlowLen promise *)
(** The keys handed to the callback of the Range of [t], in order. *)
Definition visited (t : nat) (l : list item) : list K :=
  l ≫= (fun i => match i with ICall u k _ _ => if decide (u = t) then [k] else [] | _ => [] end).

(** In the run [l] of the atomic object, for every Range or SlowLen and every stretch [l2] from its
    beginning that does not go beyond its end: no key is visited twice; every visited pair was in the
    map at a moment between the beginning of the call and the visit; after the callback has returned
    false there are no visits; and once the call returns, never stopped by the callback, every key that
    was in the map all the time was visited, and SlowLen returns the number of visits. *)
Definition range_ok (l : list item) : Prop :=
  forall l1 t c l2 l3 a1, range_call c -> l = l1 ++ IInv t c :: l2 ++ l3 ->
    (forall r, IRet t r ∉ l2) -> arun a_new l1 a1 ->
    NoDup (visited t l2) /\
    (forall u1 k v b u2, l2 = u1 ++ ICall t k v b :: u2 ->
       exists w1 w2 a2, u1 = w1 ++ w2 /\ arun a1 (IInv t c :: w1) a2 /\ a_map a2 !! k = Some v) /\
    (forall u1 k v u2, l2 = u1 ++ ICall t k v false :: u2 -> visited t u2 = []) /\
    (forall r l4, l3 = IRet t r :: l4 -> (forall k v, ICall t k v false ∉ l2) ->
       (forall k, (forall w1 w2 a2, l2 = w1 ++ w2 -> arun a1 (IInv t c :: w1) a2 ->
                     is_Some (a_map a2 !! k)) -> k ∈ visited t l2) /\
       r = match c with CSlowLen => RInt (Z.of_nat (length (visited t l2))) | _ => RUnit end).

(** ** The pairs in the map, read off its fields *)
(** Under a key the value of its entry in [read], or else, if [amended] is set, of its entry in
    [dirty]. *)
Definition contents (s : shared K) : gmap K V :=
  omap (fun e => slot_val deref (s_ent s e))
       (if s_am s then s_rd s ∪ dirty_map s else s_rd s).

(** ** Traces in which no other call overlaps a Clear *)
(** [pend]: the calls in progress. *)
Fixpoint clear_alone (pend : gmap nat call) (tr : list event) : Prop :=
  match tr with
  | [] => True
  | EInv t c :: tr =>
      (c = CClear -> pend = ∅) /\ (forall u, pend !! u <> Some CClear) /\
      clear_alone (<[t := c]> pend) tr
  | ERet t _ :: tr => clear_alone (delete t pend) tr
  | ECall _ _ _ _ :: tr => clear_alone pend tr
  end.

(** Calls that may add or remove a key, and how many such calls are in progress. *)
Definition changing (c : call) : bool :=
  match c with
  | CStore _ _ | CSwap _ _ | CLoadOrStore _ _ | CLoadAndDelete _ | CDelete _ | CCad _ _ => true
  | _ => false
  end.
Definition changing_now (thr : gmap nat (call * pc K V)) : nat :=
  length (filter (fun tcp => changing tcp.2.1 = true) (map_to_list thr)).

(** ** Traces in which calls do not overlap at all *)
Fixpoint alone (busy : bool) (tr : list event) : Prop :=
  match tr with
  | [] => True
  | EInv _ _ :: tr => busy = false /\ alone true tr
  | ERet _ _ :: tr => alone false tr
  | ECall _ _ _ _ :: tr => alone busy tr
  end.

(** What a plain map does when its calls do not overlap.  Range and SlowLen hand all pairs to the
    callback, in some order, up to the first one for which it returns false. *)
Definition calls (t : nat) (kvs : list (K * V)) : list event :=
  (fun kv => ECall t kv.1 kv.2 true) <$> kvs.

Inductive seq_trace : gmap K V -> list event -> gmap K V -> Prop :=
| st_nil m : seq_trace m [] m
| st_atomic m t c tr m' :
    atomic_call c -> seq_trace (seq_next m c) tr m' ->
    seq_trace m (EInv t c :: ERet t (seq_res m c) :: tr) m'
| st_len m t tr m' :
    seq_trace m tr m' -> seq_trace m (EInv t CLen :: ERet t (RInt (Z.of_nat (size m))) :: tr) m'
| st_slowlen m t kvs tr m' :
    kvs ≡ₚ map_to_list m -> seq_trace m tr m' ->
    seq_trace m (EInv t CSlowLen :: calls t kvs ++ ERet t (RInt (Z.of_nat (size m))) :: tr) m'
| st_range m t kvs tr m' :
    kvs ≡ₚ map_to_list m -> seq_trace m tr m' ->
    seq_trace m (EInv t CRange :: calls t kvs ++ ERet t RUnit :: tr) m'
| st_range_stop m t kvs k v rest tr m' :
    kvs ++ (k, v) :: rest ≡ₚ map_to_list m -> seq_trace m tr m' ->
    seq_trace m (EInv t CRange :: calls t kvs ++ ECall t k v false :: ERet t RUnit :: tr) m'.

End spec.

Arguments status K {_ _} V.
Arguments astate K {_ _} V.
Arguments item K {_ _} V.
