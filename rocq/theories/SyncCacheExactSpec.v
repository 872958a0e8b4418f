(** synccache: exactly what each call does, when calls are made one after the other. *)
From Verif Require Import Base RwMapModel SyncCacheModel.
Local Open Scope Z_scope.

Section exact.
Context {K : Type} `{Countable K} {V : Type}.
Context (veq : V -> V -> option bool) (has_cb : bool).
Local Notation scall := (scall K V).
Local Notation sev := (sev K V).

(** The cache: the entry of every key, and value and expiration (milliseconds) of every entry made so
    far. *)
Record cache : Type := mk_cache { x_map : gmap K nat; x_ent : gmap nat (V * Z) }.
Definition empty_cache : cache := mk_cache ∅ ∅.

Definition forget (k : K) (s : cache) : cache := mk_cache (delete k (x_map s)) (x_ent s).
Definition make (e : nat) (v : V) (x : Z) (s : cache) : cache := mk_cache (x_map s) (<[e := (v, x)]> (x_ent s)).
Definition enter (k : K) (e : nat) (s : cache) : cache := mk_cache (<[k := e]> (x_map s)) (x_ent s).

(** What is observed: a new entry; a comparison with the expiration; deletedCallback, if there is one. *)
Definition makes (t e : nat) (v : V) (n d : Z) : list sev := [SClock t n; SNew t e v (ms (n + d))].
Definition checks (t e : nat) (n x : Z) : list sev := [SClock t n; SChk t e (ms n) x].
Definition deletes (t e : nat) (v : V) : list sev := if has_cb then [SDel t e v] else [].

(** Range over [l]: expired entries are taken out, the others go to f until it returns false. *)
Fixpoint ranges (t : nat) (l : list (K * nat)) (s : cache) (seg : list sev) (s' : cache) : Prop :=
  match l with
  | [] => seg = [] /\ s' = s
  | (k, e) :: l =>
      exists n v x, x_ent s !! e = Some (v, x) /\
        if x <? ms n
        then exists seg1, seg = checks t e n x ++ deletes t e v ++ seg1 /\ ranges t l (forget k s) seg1 s'
        else exists (b : bool) seg1, seg = checks t e n x ++ SUse t k e b :: seg1 /\
               if b then ranges t l s seg1 s' else seg1 = [] /\ s' = s
  end.
(** trim, with one reading [n] of the clock. *)
Fixpoint trims (t : nat) (n : Z) (l : list (K * nat)) (s : cache) (seg : list sev) (s' : cache) : Prop :=
  match l with
  | [] => seg = [] /\ s' = s
  | (k, e) :: l =>
      exists v x, x_ent s !! e = Some (v, x) /\
        if x <? ms n
        then exists seg1, seg = SChk t e (ms n) x :: deletes t e v ++ seg1 /\ trims t n l (forget k s) seg1 s'
        else exists seg1, seg = SChk t e (ms n) x :: seg1 /\ trims t n l s seg1 s'
  end.

(** The call [c] of goroutine [t] on the cache [s]: what is observed during it, its result, and the
    cache afterwards. *)
Definition effect (t : nat) (c : scall) (s : cache) (seg : list sev) (r : sres) (s' : cache) : Prop :=
  match c with
  | SStore k v d =>
      exists n e, x_ent s !! e = None /\ seg = makes t e v n d /\ r = SUnit /\
        s' = enter k e (make e v (ms (n + d)) s)
  | SLoad k =>
      match x_map s !! k with
      | None => seg = [] /\ r = SNone /\ s' = s
      | Some e =>
          exists n v x, x_ent s !! e = Some (v, x) /\
            if x <? ms n then seg = checks t e n x ++ deletes t e v /\ r = SNone /\ s' = forget k s
            else seg = checks t e n x /\ r = SEnt e true /\ s' = s
      end
  | SLoadOrStore k v d =>
      exists n e, x_ent s !! e = None /\
        match x_map s !! k with
        | None => seg = makes t e v n d /\ r = SEnt e false /\ s' = enter k e (make e v (ms (n + d)) s)
        | Some e0 =>
            exists n0 v0 x0, x_ent s !! e0 = Some (v0, x0) /\
              if x0 <? ms n0
              then exists n1 e1, e1 <> e /\ x_ent s !! e1 = None /\
                     seg = makes t e v n d ++ checks t e0 n0 x0 ++ deletes t e0 v0 ++ makes t e1 v n1 d /\
                     r = SEnt e1 false /\
                     s' = enter k e1 (make e1 v (ms (n1 + d)) (make e v (ms (n + d)) s))
              else seg = makes t e v n d ++ checks t e0 n0 x0 /\ r = SEnt e0 true /\
                   s' = make e v (ms (n + d)) s
        end
  | SDelete k =>
      match x_map s !! k with
      | None => seg = [] /\ r = SUnit /\ s' = s
      | Some e => exists v x, x_ent s !! e = Some (v, x) /\ seg = deletes t e v /\ r = SUnit /\ s' = forget k s
      end
  | SLoadAndDelete k =>
      match x_map s !! k with
      | None => seg = [] /\ r = SNone /\ s' = s
      | Some e =>
          exists n v x, x_ent s !! e = Some (v, x) /\ seg = checks t e n x ++ deletes t e v /\
            r = (if x <? ms n then SNone else SEnt e true) /\ s' = forget k s
      end
  | SCad k e =>
      if decide (x_map s !! k = Some e)
      then exists v x, x_ent s !! e = Some (v, x) /\ seg = deletes t e v /\ r = SBool true /\ s' = forget k s
      else seg = [] /\ r = SBool false /\ s' = s
  | SCvad k v =>
      match x_map s !! k with
      | None => seg = [] /\ r = SBool false /\ s' = s
      | Some e =>
          exists n w x, x_ent s !! e = Some (w, x) /\
            if x <? ms n then seg = checks t e n x ++ deletes t e w /\ r = SBool false /\ s' = forget k s
            else match veq v w with
                 | Some true => seg = checks t e n x ++ deletes t e w /\ r = SBool true /\ s' = forget k s
                 | Some false => seg = checks t e n x /\ r = SBool false /\ s' = s
                 | None => seg = checks t e n x /\ r = SPanic /\ s' = s
                 end
      end
  | SClear =>
      r = SUnit /\ s' = mk_cache ∅ (x_ent s) /\
      if has_cb
      then exists l, l ≡ₚ map_to_list (x_map s) /\
             Forall2 (fun p ev => exists v x, x_ent s !! p.2 = Some (v, x) /\ ev = SDel t p.2 v) l seg
      else seg = []
  | SRange => r = SUnit /\ exists l, l ≡ₚ map_to_list (x_map s) /\ ranges t l s seg s'
  | STrim =>
      r = SUnit /\ exists n l seg1, l ≡ₚ map_to_list (x_map s) /\ seg = SClock t n :: seg1 /\ trims t n l s seg1 s'
  end.

(** Calls one after the other, SetExpiration and AddExpiration in between. *)
Inductive behaves : cache -> list sev -> cache -> Prop :=
| behaves_nil s : behaves s [] s
| behaves_call s t c seg r s1 tr s2 :
    effect t c s seg r s1 -> behaves s1 tr s2 -> behaves s (SInv t c :: seg ++ SRet t r :: tr) s2
| behaves_set s e at_ v x tr s2 :
    x_ent s !! e = Some (v, x) -> behaves (make e v (ms at_) s) tr s2 -> behaves s (SSet e at_ :: tr) s2
| behaves_add s e d v x tr s2 :
    x_ent s !! e = Some (v, x) -> behaves (make e v (x + Z.quot d 1000000) s) tr s2 ->
    behaves s (SAdd e d :: tr) s2.

(** The observations are of such use: no call begins, and no expiration is moved, during a call. *)
Fixpoint one_by_one (busy : bool) (tr : list sev) : Prop :=
  match tr with
  | [] => True
  | SInv _ _ :: tr => busy = false /\ one_by_one true tr
  | SRet _ _ :: tr => one_by_one false tr
  | (SSet _ _ | SAdd _ _) :: tr => busy = false /\ one_by_one busy tr
  | _ :: tr => one_by_one busy tr
  end.
End exact.
Arguments cache K {_ _} V.
