(** What the calls do, with a deletedCallback that stores into the cache. *)
From Verif Require Import Base GoMap GoMapSpec RwMapAnyModel RwMapAnySpec SyncCacheAnyModel SyncCacheAnySpec SyncCacheStoreModel.
Local Open Scope Z_scope.

(** A call with the clock during it: when entries are made and when they are looked at. *)
Notation timed_s K V := ((nat -> Z) * (nat -> Z) * c_call K V)%type.

Section spec.
  Context {K V : Type} (eqb : K -> K -> bool) (upd : bool) (veq : V -> V -> bool).
  Context (ord : nat -> list (K * nat) -> list (K * nat)).
  Context (stores : V -> list (K * V * Z)).
  Notation content := (@content K V).

  (** LoadOrStore goes around its loop at most [fuel] times. *)
  Definition s_exec (fuel : nat) (now chk : nat -> Z) (c : c_call K V) : M (cache K V) c_ret :=
    match c with
    | CStore k v d => c_Store eqb upd ord now k v d ;;; ret RUnit
    | CLoad k => o <- s_Load eqb upd ord stores now chk k ;; ret (REnt o)
    | CLoadOrStore k v d => r <- s_LoadOrStore eqb upd ord stores now chk fuel k v d ;; ret (RLoaded (fst r) (snd r))
    | CDelete k => s_Delete eqb upd ord stores now k ;;; ret RUnit
    | CLoadAndDelete k => o <- s_LoadAndDelete eqb upd ord stores now chk k ;; ret (REnt o)
    | CCompareAndDelete k e => b <- s_CompareAndDelete eqb upd ord stores now k e ;; ret (RBool b)
    | CCompareValueAndDelete k v => b <- s_CompareValueAndDelete eqb upd veq ord stores now chk k v ;; ret (RBool b)
    | CSetExpiration e t => SetExpiration e t ;;; ret RUnit
    | CAddExpiration e d => AddExpiration e d ;;; ret RUnit
    | CClear => s_Clear eqb upd ord stores now ;;; ret RUnit
    | CRange f => s_Range eqb upd ord stores now chk f ;;; ret RUnit
    | CTrim => s_trim eqb upd ord stores now chk ;;; ret RUnit
    end.
  (** A history; [None]: a call panicked or went around its loop too often. *)
  Fixpoint s_run (fuel : nat) (s : cache K V) (cs : list (timed_s K V)) : option (list c_ret * cache K V) :=
    match cs with
    | [] => Some ([], s)
    | (now, chk, c) :: cs =>
        match s_exec fuel now chk c s with
        | Ok (r, s1) => match s_run fuel s1 cs with Some (rs, s2) => Some (r :: rs, s2) | None => None end
        | _ => None
        end
    end.

  (** The content after a Store. *)
  Definition stored (now : nat -> Z) (k : K) (v : V) (d : Z) (t : content) : content :=
    insert eqb k (t_new t) (make now v d t).
  (** Taking out the entry [e] of [k], and what deletedCallback stores then. *)
  Definition replaced (now : nat -> Z) (k : K) (e : nat) (t : content) : content :=
    fold_left (fun t '(k, v, d) => stored now k v d t) (stores (value t e)) (remove eqb k t).

  (** LoadOrStore: each expired entry it finds is taken out, then it looks again. *)
  Inductive load_or_store (now chk : nat -> Z) (k : K) (v : V) (d : Z) : content -> c_ret -> content -> list (c_event K V) -> Prop :=
  | ls_absent t : t_map t k = None -> load_or_store now chk k v d t (RLoaded (t_new t) false) (stored now k v d t) []
  | ls_found t e : t_map t k = Some e -> expired t chk e = false -> load_or_store now chk k v d t (RLoaded e true) (make now v d t) []
  | ls_again t e r t' evs :
      t_map t k = Some e -> expired t chk e = true ->
      load_or_store now chk k v d (replaced now k e (make now v d t)) r t' evs ->
      load_or_store now chk k v d t r t' (EDel (value t e) :: evs).

  (** Clear, Range and trim: the pairs they come to, one after the other.  Each is in the cache when they come
      to it; if [doomed] it is taken out, which a key that is not [==] to itself prevents, and else it is handed
      to the callback of Range, if there is one ([use]).  The last index tells whether [f] stopped the loop. *)
  Definition in_cache (t : content) (k : K) (e : nat) : Prop := t_map t k = Some e \/ eqb k k = false /\ (k, e) ∈ t_odd t.
  Definition shown (use : bool) (k : K) (e : nat) : list (c_event K V) := if use then [EUse k e] else [].
  Inductive walk (now : nat -> Z) (doomed : V * Z -> nat -> bool) (use : bool) (f : K -> nat -> bool)
    : list (K * nat) -> content -> content -> list (c_event K V) -> bool -> Prop :=
  | w_end t : walk now doomed use f [] t t [] false
  | w_out t k e l t' evs b :
      t_map t k = Some e -> doomed (t_ent t e) e = true -> walk now doomed use f l (replaced now k e t) t' evs b ->
      walk now doomed use f ((k, e) :: l) t t' (EDel (value t e) :: evs) b
  | w_odd t k e l t' evs b :
      eqb k k = false -> (k, e) ∈ t_odd t -> doomed (t_ent t e) e = true -> walk now doomed use f l t t' evs b ->
      walk now doomed use f ((k, e) :: l) t t' evs b
  | w_use t k e l t' evs b :
      in_cache t k e -> doomed (t_ent t e) e = false -> f k e = true -> walk now doomed use f l t t' evs b ->
      walk now doomed use f ((k, e) :: l) t t' (shown use k e ++ evs) b
  | w_stop t k e :
      in_cache t k e -> doomed (t_ent t e) e = false -> f k e = false ->
      walk now doomed use f [(k, e)] t t (shown use k e) true.
  (** No two of these pairs have [==] keys, and unless [f] stopped the loop each key that finds an entry at the
      start is among them. *)
  Definition through (now : nat -> Z) (doomed : V * Z -> nat -> bool) (use : bool) (f : K -> nat -> bool)
      (t t' : content) (evs : list (c_event K V)) : Prop :=
    exists l b, walk now doomed use f l t t' evs b /\ apart eqb l /\
      (b = false -> forall k, t_map t k <> None -> exists k' e, (k', e) ∈ l /\ eqb k' k = true).

  Definition effect_s (now chk : nat -> Z) (c : c_call K V) (t : content) (r : c_ret) (t' : content) (evs : list (c_event K V)) : Prop :=
    match c with
    | CStore k v d => r = RUnit /\ t' = stored now k v d t /\ evs = []
    | CLoad k =>
        match t_map t k with
        | None => r = REnt None /\ t' = t /\ evs = []
        | Some e =>
            if expired t chk e then r = REnt None /\ t' = replaced now k e t /\ evs = [EDel (value t e)]
            else r = REnt (Some e) /\ t' = t /\ evs = []
        end
    | CLoadOrStore k v d => load_or_store now chk k v d t r t' evs
    | CDelete k =>
        match t_map t k with
        | None => r = RUnit /\ t' = t /\ evs = []
        | Some e => r = RUnit /\ t' = replaced now k e t /\ evs = [EDel (value t e)]
        end
    | CLoadAndDelete k =>
        match t_map t k with
        | None => r = REnt None /\ t' = t /\ evs = []
        | Some e => r = REnt (if expired t chk e then None else Some e) /\ t' = replaced now k e t /\ evs = [EDel (value t e)]
        end
    | CCompareAndDelete k e =>
        if decide (t_map t k = Some e) then r = RBool true /\ t' = replaced now k e t /\ evs = [EDel (value t e)]
        else r = RBool false /\ t' = t /\ evs = []
    | CCompareValueAndDelete k v =>
        match t_map t k with
        | None => r = RBool false /\ t' = t /\ evs = []
        | Some e =>
            if expired t chk e then r = RBool false /\ t' = replaced now k e t /\ evs = [EDel (value t e)]
            else if veq v (value t e) then r = RBool true /\ t' = replaced now k e t /\ evs = [EDel (value t e)]
            else r = RBool false /\ t' = t /\ evs = []
        end
    | CSetExpiration e at_ =>
        r = RUnit /\ t' = mk_content (t_map t) (t_odd t) (<[e := (value t e, at_ / 1000000)]> (t_ent t)) (t_new t) /\ evs = []
    | CAddExpiration e d =>
        r = RUnit /\ t' = mk_content (t_map t) (t_odd t) (<[e := (value t e, expires t e + Z.quot d 1000000)]> (t_ent t)) (t_new t) /\ evs = []
    | CClear => r = RUnit /\ through now (fun _ _ => true) false (fun _ _ => true) t t' evs
    | CRange f => r = RUnit /\ through now (fun x e => snd x <? chk e / 1000000) true f t t' evs
    | CTrim => r = RUnit /\ through now (fun x _ => snd x <? chk 0%nat / 1000000) false (fun _ _ => true) t t' evs
    end.
  Fixpoint effects_s (t : content) (cs : list (timed_s K V)) (rs : list c_ret) (t' : content) (evs : list (c_event K V)) : Prop :=
    match cs, rs with
    | [], [] => t' = t /\ evs = []
    | (now, chk, c) :: cs, r :: rs =>
        exists t1 evs1 evs2, effect_s now chk c t r t1 evs1 /\ effects_s t1 cs rs t' evs2 /\ evs = evs1 ++ evs2
    | _, _ => False
    end.

  (** What deletedCallback stores has not expired at the readings of the clock of this call. *)
  Definition fresh_stores (now chk : nat -> Z) : Prop :=
    forall v k v' d, (k, v', d) ∈ stores v -> forall e, chk e / 1000000 <= (now e + d) / 1000000.
End spec.
