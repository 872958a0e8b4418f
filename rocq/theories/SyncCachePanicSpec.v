(** What the calls do, with callbacks that panic. *)
From Verif Require Import Base GoMap GoMapSpec RwMapAnyModel RwMapAnySpec SyncCacheAnyModel SyncCacheAnySpec SyncCachePanicModel.
Local Open Scope Z_scope.

(** A call of SyncCacheAnySpec.v, or a Range whose callback may panic. *)
Inductive p_call (K V : Type) := PCall (c : c_call K V) | PRange (f : K -> nat -> option bool).
Arguments PCall {K V}. Arguments PRange {K V}.
Notation timed_p K V := ((nat -> Z) * p_call K V)%type.

Section spec.
  Context {K V : Type} (eqb : K -> K -> bool) (upd : bool) (veq : V -> V -> bool).
  Context (ord : nat -> list (K * nat) -> list (K * nat)).
  Context (panics : V -> bool).
  Notation content := (@content K V).

  Definition p_exec (now : nat -> Z) (c : p_call K V) : M (cache K V) (option c_ret) :=
    match c with
    | PCall (CStore k v d) => c_Store eqb upd ord now k v d ;;; ret (Some RUnit)
    | PCall (CLoad k) => andthen (p_Load eqb panics now k) (fun o => ret (Some (REnt o)))
    | PCall (CLoadOrStore k v d) => andthen (p_LoadOrStore eqb upd ord panics now 2 k v d) (fun r => ret (Some (RLoaded (fst r) (snd r))))
    | PCall (CDelete k) => andthen (p_Delete eqb panics k) (fun _ => ret (Some RUnit))
    | PCall (CLoadAndDelete k) => andthen (p_LoadAndDelete eqb panics now k) (fun o => ret (Some (REnt o)))
    | PCall (CCompareAndDelete k e) => andthen (p_CompareAndDelete eqb panics k e) (fun b => ret (Some (RBool b)))
    | PCall (CCompareValueAndDelete k v) => andthen (p_CompareValueAndDelete eqb veq panics now k v) (fun b => ret (Some (RBool b)))
    | PCall CClear => andthen (p_Clear eqb ord panics) (fun _ => ret (Some RUnit))
    | PCall (CRange f) => andthen (p_Range eqb ord panics now (fun k e => Some (f k e))) (fun _ => ret (Some RUnit))
    | PCall CTrim => andthen (p_trim eqb ord panics now) (fun _ => ret (Some RUnit))
    | PCall (CSetExpiration e t) => SetExpiration e t ;;; ret (Some RUnit)
    | PCall (CAddExpiration e d) => AddExpiration e d ;;; ret (Some RUnit)
    | PRange f => andthen (p_Range eqb ord panics now f) (fun _ => ret (Some RUnit))
    end.
  (** A history of calls, which goes on after a panic ([None] among the results). *)
  Fixpoint p_run (s : cache K V) (cs : list (timed_p K V)) : option (list (option c_ret) * cache K V) :=
    match cs with
    | [] => Some ([], s)
    | (now, c) :: cs =>
        match p_exec now c s with
        | Ok (r, s1) => match p_run s1 cs with Some (rs, s2) => Some (r :: rs, s2) | None => None end
        | _ => None
        end
    end.

  (** The entry [e] is taken out: the call returns [r] unless the callback panics on its value. *)
  Definition unless (t : content) (e : nat) (r : c_ret) : option c_ret := if panics (value t e) then None else Some r.
  Definition says (t : content) (e : nat) : list (c_event K V) := [EDel (value t e)].

  (** Calls that go through the entries, in some order [l]: those with [doomed] are taken out and reported,
      those of keys that are not [==] to themselves excepted; the others are handed to the callback of Range.
      [turn] is what becomes of the loop there: it goes on, it stops, or ([None]) a callback panics. *)
  Definition turn (t : content) (doomed : nat -> bool) (f : K -> nat -> option bool) (p : K * nat) : option bool :=
    if doomed (snd p) then if eqb (fst p) (fst p) && panics (value t (snd p)) then None else Some true
    else f (fst p) (snd p).
  (** The pairs the loop comes to: up to and including the first for which it does not go on. *)
  Definition visit_p (t : content) (doomed : nat -> bool) (f : K -> nat -> option bool) (l : list (K * nat)) : list (K * nat) :=
    visited (fun p => match turn t doomed f p with Some true => true | _ => false end) l.
  Definition sweep_p (t : content) (doomed : nat -> bool) (use : bool) (f : K -> nat -> option bool)
      (r : option c_ret) (t' : content) (evs : list (c_event K V)) : Prop :=
    exists l, listing eqb t l /\
      let l' := visit_p t doomed f l in
      t' = with_map (sweep_map eqb t doomed l') t /\ evs = sweep_events eqb true t doomed use l' /\
      r = (if existsb (fun p => match turn t doomed f p with None => true | _ => false end) l' then None else Some RUnit).

  Definition effect_p (now : nat -> Z) (c : p_call K V) (t : content) (r : option c_ret) (t' : content) (evs : list (c_event K V)) : Prop :=
    match c with
    | PCall (CStore k v d) => r = Some RUnit /\ t' = insert eqb k (t_new t) (make now v d t) /\ evs = []
    | PCall (CLoad k) =>
        match t_map t k with
        | None => r = Some (REnt None) /\ t' = t /\ evs = []
        | Some e =>
            if expired t now e then r = unless t e (REnt None) /\ t' = remove eqb k t /\ evs = says t e
            else r = Some (REnt (Some e)) /\ t' = t /\ evs = []
        end
    | PCall (CLoadOrStore k v d) =>
        let t1 := make now v d t in
        match t_map t k with
        | None => r = Some (RLoaded (t_new t) false) /\ t' = insert eqb k (t_new t) t1 /\ evs = []
        | Some e =>
            if expired t now e then
              r = unless t e (RLoaded (t_new t1) false) /\ evs = says t e /\
              t' = if panics (value t e) then remove eqb k t1 else insert eqb k (t_new t1) (make now v d (remove eqb k t1))
            else r = Some (RLoaded e true) /\ t' = t1 /\ evs = []
        end
    | PCall (CDelete k) =>
        match t_map t k with
        | None => r = Some RUnit /\ t' = t /\ evs = []
        | Some e => r = unless t e RUnit /\ t' = remove eqb k t /\ evs = says t e
        end
    | PCall (CLoadAndDelete k) =>
        match t_map t k with
        | None => r = Some (REnt None) /\ t' = t /\ evs = []
        | Some e => r = unless t e (REnt (if expired t now e then None else Some e)) /\ t' = remove eqb k t /\ evs = says t e
        end
    | PCall (CCompareAndDelete k e) =>
        if decide (t_map t k = Some e) then r = unless t e (RBool true) /\ t' = remove eqb k t /\ evs = says t e
        else r = Some (RBool false) /\ t' = t /\ evs = []
    | PCall (CCompareValueAndDelete k v) =>
        match t_map t k with
        | None => r = Some (RBool false) /\ t' = t /\ evs = []
        | Some e =>
            if expired t now e then r = unless t e (RBool false) /\ t' = remove eqb k t /\ evs = says t e
            else if veq v (value t e) then r = unless t e (RBool true) /\ t' = remove eqb k t /\ evs = says t e
            else r = Some (RBool false) /\ t' = t /\ evs = []
        end
    | PCall CClear => sweep_p t (fun _ => true) false (fun _ _ => Some true) r t' evs
    | PCall (CRange f) => sweep_p t (expired t now) true (fun k e => Some (f k e)) r t' evs
    | PCall CTrim => sweep_p t (fun e => expires t e <? now 0%nat / 1000000) false (fun _ _ => Some true) r t' evs
    | PCall (CSetExpiration e at_) =>
        r = Some RUnit /\ t' = mk_content (t_map t) (t_odd t) (<[e := (value t e, at_ / 1000000)]> (t_ent t)) (t_new t) /\ evs = []
    | PCall (CAddExpiration e d) =>
        r = Some RUnit /\ t' = mk_content (t_map t) (t_odd t) (<[e := (value t e, expires t e + Z.quot d 1000000)]> (t_ent t)) (t_new t) /\ evs = []
    | PRange f => sweep_p t (expired t now) true f r t' evs
    end.
  Fixpoint effects_p (t : content) (cs : list (timed_p K V)) (rs : list (option c_ret)) (t' : content) (evs : list (c_event K V)) : Prop :=
    match cs, rs with
    | [], [] => t' = t /\ evs = []
    | (now, c) :: cs, r :: rs =>
        exists t1 evs1 evs2, effect_p now c t r t1 evs1 /\ effects_p t1 cs rs t' evs2 /\ evs = evs1 ++ evs2
    | _, _ => False
    end.
End spec.
