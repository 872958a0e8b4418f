(** RWMap used by one goroutine against a built-in map, for every key type. *)
From Verif Require Import Base GoMap GoMapSpec RwMapAnyModel.

(** [==] of Go: symmetric and transitive; not reflexive for floats, and for structs, arrays and interfaces
    that have them inside. *)
Definition per {K} (eqb : K -> K -> bool) : Prop :=
  (forall x y, eqb x y = true -> eqb y x = true) /\
  (forall x y z, eqb x y = true -> eqb y z = true -> eqb x z = true).

Inductive a_call (K V : Type) :=
| ALoad (k : K) | AStore (k : K) (v : V) | ASwap (k : K) (v : V) | ALoadOrStore (k : K) (v : V)
| ALoadAndDelete (k : K) | ADelete (k : K) | ACompareAndSwap (k : K) (old new : V) | ACompareAndDelete (k : K) (old : V)
| AClear | ALen | ASlowLen | ARange (f : K -> V -> bool).
Arguments ALoad {K V}. Arguments AStore {K V}. Arguments ASwap {K V}. Arguments ALoadOrStore {K V}.
Arguments ALoadAndDelete {K V}. Arguments ADelete {K V}. Arguments ACompareAndSwap {K V}. Arguments ACompareAndDelete {K V}.
Arguments AClear {K V}. Arguments ALen {K V}. Arguments ASlowLen {K V}. Arguments ARange {K V}.

Inductive a_ret (K V : Type) := AUnit | AOpt (o : option V) | AVal (v : V) (loaded : bool) | ABool (b : bool) | AInt (n : Z) | ASeen (l : list (K * V)).
Arguments AUnit {K V}. Arguments AOpt {K V}. Arguments AVal {K V}. Arguments ABool {K V}. Arguments AInt {K V}. Arguments ASeen {K V}.

Section spec.
  Context {K V : Type} (eqb : K -> K -> bool) (upd : bool) (veq : V -> V -> bool).
  Context (ord : nat -> list (K * nat) -> list (K * nat)).

  Definition a_exec (c : a_call K V) : M (amap K V) (a_ret K V) :=
    match c with
    | ALoad k => o <- Load eqb k ;; ret (AOpt o)
    | AStore k v => Store eqb upd ord k v ;;; ret AUnit
    | ASwap k v => o <- Swap eqb upd ord k v ;; ret (AOpt o)
    | ALoadOrStore k v => r <- LoadOrStore eqb upd ord k v ;; ret (AVal (fst r) (snd r))
    | ALoadAndDelete k => o <- LoadAndDelete eqb k ;; ret (AOpt o)
    | ADelete k => Delete eqb k ;;; ret AUnit
    | ACompareAndSwap k old new => b <- CompareAndSwap eqb veq k old new ;; ret (ABool b)
    | ACompareAndDelete k old => b <- CompareAndDelete eqb veq k old ;; ret (ABool b)
    | AClear => Clear ;;; ret AUnit
    | ALen => n <- Len ;; ret (AInt n)
    | ASlowLen => n <- SlowLen ord ;; ret (AInt n)
    | ARange f => l <- Range ord f ;; ret (ASeen l)
    end.

  (** The same on a built-in map, whose entries are [l]: all entries afterwards, and the result; Range is
      described below. *)
  Definition plain (c : a_call K V) (l : list (K * V)) : list (K * V) * a_ret K V :=
    let found k := mlookup eqb l k in
    match c with
    | ALoad k => (l, AOpt (found k))
    | AStore k v => (mset eqb upd l k v, AUnit)
    | ASwap k v => (mset eqb upd l k v, AOpt (found k))
    | ALoadOrStore k v => match found k with Some w => (l, AVal w true) | None => (mset eqb upd l k v, AVal v false) end
    | ALoadAndDelete k => (mdel eqb l k, AOpt (found k))
    | ADelete k => (mdel eqb l k, AUnit)
    | ACompareAndSwap k old new =>
        match found k with Some w => if veq w old then (mset eqb upd l k new, ABool true) else (l, ABool false) | None => (l, ABool false) end
    | ACompareAndDelete k old =>
        match found k with Some w => if veq w old then (mdel eqb l k, ABool true) else (l, ABool false) | None => (l, ABool false) end
    | AClear => ([], AUnit)
    | ALen => (l, AInt (Z.of_nat (length l)))
    | ASlowLen => (l, AInt (Z.of_nat (length l)))
    | ARange _ => (l, ASeen l)
    end.

  (** Two tables that cannot be told apart, but for which of several [==] keys they show: lookups give the
      same, the entries whose keys are not [==] to themselves are the same, and there are as many. *)
  Definition odd (p : K * V) : bool := negb (eqb (fst p) (fst p)).
  Definition alike (l1 l2 : list (K * V)) : Prop :=
    (forall k, mlookup eqb l1 k = mlookup eqb l2 k) /\ List.filter odd l1 ≡ₚ List.filter odd l2 /\ length l1 = length l2.
  (** The keys of a table are different. *)
  Definition apart {A} (l : list (K * A)) : Prop :=
    forall i j p q, l !! i = Some p -> l !! j = Some q -> i <> j -> eqb (fst p) (fst q) = false.
  (** Results agree: those of Range if both give the first pairs of tables that are alike. *)
  Definition agrees (c : a_call K V) (r r' : a_ret K V) : Prop :=
    match c, r, r' with
    | ARange f, ASeen seen, ASeen l => exists l1, alike l1 l /\ apart l1 /\ seen = visited (fun p => f (fst p) (snd p)) l1
    | _, r, r' => r = r'
    end.

  (** A history of calls of the RWMap; [None]: a call panicked. *)
  Fixpoint a_run (s : amap K V) (cs : list (a_call K V)) : option (list (a_ret K V) * amap K V) :=
    match cs with
    | [] => Some ([], s)
    | c :: cs =>
        match a_exec c s with
        | Ok (r, s1) => match a_run s1 cs with Some (rs, s2) => Some (r :: rs, s2) | None => None end
        | _ => None
        end
    end.
  Fixpoint plain_run (l : list (K * V)) (cs : list (a_call K V)) : list (a_ret K V) * list (K * V) :=
    match cs with
    | [] => ([], l)
    | c :: cs => let '(l1, r) := plain c l in let '(rs, l2) := plain_run l1 cs in (r :: rs, l2)
    end.

  (** The pairs stored under keys that are not [==] to themselves since the last Clear. *)
  Fixpoint kept (acc : list (K * V)) (cs : list (a_call K V)) : list (K * V) :=
    match cs with
    | [] => acc
    | c :: cs =>
        kept (match c with
              | AStore k v | ASwap k v | ALoadOrStore k v => if eqb k k then acc else (k, v) :: acc
              | AClear => []
              | _ => acc
              end) cs
    end.
End spec.
