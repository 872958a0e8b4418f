(** What each call of a cache does, for every key type. *)
From Verif Require Import Base GoMap GoMapSpec RwMapAnyModel RwMapAnySpec SyncCacheAnyModel.
Local Open Scope Z_scope.

Inductive c_call (K V : Type) :=
| CStore (k : K) (v : V) (d : Z) | CLoad (k : K) | CLoadOrStore (k : K) (v : V) (d : Z) | CDelete (k : K)
| CLoadAndDelete (k : K) | CCompareAndDelete (k : K) (e : nat) | CCompareValueAndDelete (k : K) (v : V)
| CClear | CRange (f : K -> nat -> bool) | CTrim
| CSetExpiration (e : nat) (t : Z) | CAddExpiration (e : nat) (d : Z).
Arguments CStore {K V}. Arguments CLoad {K V}. Arguments CLoadOrStore {K V}. Arguments CDelete {K V}.
Arguments CLoadAndDelete {K V}. Arguments CCompareAndDelete {K V}. Arguments CCompareValueAndDelete {K V}.
Arguments CClear {K V}. Arguments CRange {K V}. Arguments CTrim {K V}.
Arguments CSetExpiration {K V}. Arguments CAddExpiration {K V}.

(** [REnt o]: an entry or (nil, false); [RLoaded e b]: (e, b). *)
Inductive c_ret := RUnit | REnt (o : option nat) | RLoaded (e : nat) (loaded : bool) | RBool (b : bool).

(** A call with the clock during it. *)
Notation timed K V := ((nat -> Z) * c_call K V)%type.

Section spec.
  Context {K V : Type} (eqb : K -> K -> bool) (upd : bool) (veq : V -> V -> bool) (has_cb : bool).
  Context (ord : nat -> list (K * nat) -> list (K * nat)).

  Definition c_exec (now : nat -> Z) (c : c_call K V) : M (cache K V) c_ret :=
    match c with
    | CStore k v d => c_Store eqb upd ord now k v d ;;; ret RUnit
    | CLoad k => o <- c_Load eqb has_cb now k ;; ret (REnt o)
    | CLoadOrStore k v d => r <- c_LoadOrStore eqb upd has_cb ord now 2 k v d ;; ret (RLoaded (fst r) (snd r))
    | CDelete k => c_Delete eqb has_cb k ;;; ret RUnit
    | CLoadAndDelete k => o <- c_LoadAndDelete eqb has_cb now k ;; ret (REnt o)
    | CCompareAndDelete k e => b <- c_CompareAndDelete eqb has_cb k e ;; ret (RBool b)
    | CCompareValueAndDelete k v => b <- c_CompareValueAndDelete eqb veq has_cb now k v ;; ret (RBool b)
    | CClear => c_Clear eqb has_cb ord ;;; ret RUnit
    | CRange f => c_Range eqb has_cb ord now f ;;; ret RUnit
    | CTrim => c_trim eqb has_cb ord now ;;; ret RUnit
    | CSetExpiration e t => SetExpiration e t ;;; ret RUnit
    | CAddExpiration e d => AddExpiration e d ;;; ret RUnit
    end.
  (** A history of calls; [None]: a call panicked or went around its loop too often. *)
  Fixpoint c_run (s : cache K V) (cs : list (timed K V)) : option (list c_ret * cache K V) :=
    match cs with
    | [] => Some ([], s)
    | (now, c) :: cs =>
        match c_exec now c s with
        | Ok (r, s1) => match c_run s1 cs with Some (rs, s2) => Some (r :: rs, s2) | None => None end
        | _ => None
        end
    end.

  (** What a cache contains: the entry of each key ([None]: no entry), and the pairs under keys that are not
      [==] to themselves, which no key finds; value and expiration of the entries; how many there are. *)
  Record content := mk_content {
    t_map : K -> option nat; t_odd : list (K * nat); t_ent : nat -> V * Z; t_new : nat
  }.
  Definition with_map (m : K -> option nat) (t : content) : content := mk_content m (t_odd t) (t_ent t) (t_new t).
  Definition value (t : content) (e : nat) : V := fst (t_ent t e).
  Definition expires (t : content) (e : nat) : Z := snd (t_ent t e).
  (** The clock shows a later millisecond. *)
  Definition expired (t : content) (now : nat -> Z) (e : nat) : bool := expires t e <? now e / 1000000.

  Definition remove (k : K) (t : content) : content := with_map (fupd eqb (t_map t) k None) t.
  (** A new entry, under no key yet. *)
  Definition make (now : nat -> Z) (v : V) (d : Z) (t : content) : content :=
    mk_content (t_map t) (t_odd t) (<[t_new t := (v, (now (t_new t) + d) / 1000000)]> (t_ent t)) (S (t_new t)).
  Definition insert (k : K) (e : nat) (t : content) : content :=
    if eqb k k then with_map (fupd eqb (t_map t) k (Some e)) t
    else mk_content (t_map t) ((k, e) :: t_odd t) (t_ent t) (t_new t).
  (** deletedCallback is called on the value of the entry. *)
  Definition reported (t : content) (e : nat) : list (c_event K V) := if has_cb then [EDel (value t e)] else [].

  (** Calls that go through the entries, in some order [l]: each pair of the cache once. *)
  Definition listing (t : content) (l : list (K * nat)) : Prop :=
    apart eqb l /\ (forall k, mlookup eqb l k = t_map t k) /\ List.filter (odd eqb) l ≡ₚ t_odd t.
  (** Those of [l] with [doomed] are taken out, with a report, if their key is [==] to itself; the others are
      handed to the callback of Range, if there is one ([use]); what follows the first one for which it
      answers false is not visited. *)
  Definition visit (doomed : nat -> bool) (f : K -> nat -> bool) (l : list (K * nat)) : list (K * nat) :=
    visited (fun p => doomed (snd p) || f (fst p) (snd p))%bool l.
  Definition sweep_events (t : content) (doomed : nat -> bool) (use : bool) (l : list (K * nat)) : list (c_event K V) :=
    concat (map (fun p =>
      if doomed (snd p) then if eqb (fst p) (fst p) then reported t (snd p) else []
      else if use then [EUse (fst p) (snd p)] else []) l).
  Definition sweep_map (t : content) (doomed : nat -> bool) (l : list (K * nat)) : K -> option nat :=
    fun k => match mlookup eqb l k with Some e => if doomed e then None else t_map t k | None => t_map t k end.
  Definition sweep (t : content) (doomed : nat -> bool) (use : bool) (f : K -> nat -> bool) (t' : content) (evs : list (c_event K V)) : Prop :=
    exists l, listing t l /\ t' = with_map (sweep_map t doomed (visit doomed f l)) t /\ evs = sweep_events t doomed use (visit doomed f l).

  (** [effect now c t r t' evs]: in a cache with content [t], call [c] returns [r], the callbacks get [evs],
      and afterwards the content is [t']. *)
  Definition effect (now : nat -> Z) (c : c_call K V) (t : content) (r : c_ret) (t' : content) (evs : list (c_event K V)) : Prop :=
    match c with
    | CStore k v d => r = RUnit /\ t' = insert k (t_new t) (make now v d t) /\ evs = []
    | CLoad k =>
        match t_map t k with
        | None => r = REnt None /\ t' = t /\ evs = []
        | Some e =>
            if expired t now e then r = REnt None /\ t' = remove k t /\ evs = reported t e
            else r = REnt (Some e) /\ t' = t /\ evs = []
        end
    | CLoadOrStore k v d =>
        let t1 := make now v d t in
        match t_map t k with
        | None => r = RLoaded (t_new t) false /\ t' = insert k (t_new t) t1 /\ evs = []
        | Some e =>
            if expired t now e then
              r = RLoaded (t_new t1) false /\ t' = insert k (t_new t1) (make now v d (remove k t1)) /\ evs = reported t e
            else r = RLoaded e true /\ t' = t1 /\ evs = []
        end
    | CDelete k =>
        match t_map t k with
        | None => r = RUnit /\ t' = t /\ evs = []
        | Some e => r = RUnit /\ t' = remove k t /\ evs = reported t e
        end
    | CLoadAndDelete k =>
        match t_map t k with
        | None => r = REnt None /\ t' = t /\ evs = []
        | Some e => r = REnt (if expired t now e then None else Some e) /\ t' = remove k t /\ evs = reported t e
        end
    | CCompareAndDelete k e =>
        if decide (t_map t k = Some e) then r = RBool true /\ t' = remove k t /\ evs = reported t e
        else r = RBool false /\ t' = t /\ evs = []
    | CCompareValueAndDelete k v =>
        match t_map t k with
        | None => r = RBool false /\ t' = t /\ evs = []
        | Some e =>
            if expired t now e then r = RBool false /\ t' = remove k t /\ evs = reported t e
            else if veq v (value t e) then r = RBool true /\ t' = remove k t /\ evs = reported t e
            else r = RBool false /\ t' = t /\ evs = []
        end
    | CClear =>
        r = RUnit /\
        if has_cb then sweep t (fun _ => true) false (fun _ _ => true) t' evs
        else t' = mk_content (fun _ => None) [] (t_ent t) (t_new t) /\ evs = []
    | CRange f => r = RUnit /\ sweep t (expired t now) true f t' evs
    | CTrim => r = RUnit /\ sweep t (fun e => expires t e <? now 0%nat / 1000000) false (fun _ _ => true) t' evs
    | CSetExpiration e at_ =>
        r = RUnit /\ t' = mk_content (t_map t) (t_odd t) (<[e := (value t e, at_ / 1000000)]> (t_ent t)) (t_new t) /\ evs = []
    | CAddExpiration e d =>
        r = RUnit /\ t' = mk_content (t_map t) (t_odd t) (<[e := (value t e, expires t e + Z.quot d 1000000)]> (t_ent t)) (t_new t) /\ evs = []
    end.

  (** A history from content [t] to [t']. *)
  Fixpoint effects (t : content) (cs : list (timed K V)) (rs : list c_ret) (t' : content) (evs : list (c_event K V)) : Prop :=
    match cs, rs with
    | [], [] => t' = t /\ evs = []
    | (now, c) :: cs, r :: rs =>
        exists t1 evs1 evs2, effect now c t r t1 evs1 /\ effects t1 cs rs t' evs2 /\ evs = evs1 ++ evs2
    | _, _ => False
    end.
  Definition no_content (v0 : V) : content := mk_content (fun _ => None) [] (fun _ => (v0, 0)) 1.

  (** The pairs stored under keys that are not [==] to themselves; Clear takes them out if there is no
      deletedCallback. *)
  Fixpoint c_kept (acc : list (K * V)) (cs : list (timed K V)) : list (K * V) :=
    match cs with
    | [] => acc
    | (_, c) :: cs =>
        c_kept (match c with
                | CStore k v _ | CLoadOrStore k v _ => if eqb k k then acc else (k, v) :: acc
                | CClear => if has_cb then acc else []
                | _ => acc
                end) cs
    end.
  (** The pairs a Range handed to its callback. *)
  Fixpoint used (evs : list (c_event K V)) : list (K * nat) :=
    match evs with
    | [] => []
    | EUse k e :: evs => (k, e) :: used evs
    | _ :: evs => used evs
    end.
End spec.
