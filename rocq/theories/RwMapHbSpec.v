(** What happens before what in executions of rwmap.

    The Go memory model: if the effect of an atomic operation A is observed by an atomic operation B,
    then A is synchronized before B; what a goroutine did before A then happens before what the other
    one does after B.  Here only the accesses to the pointers of entries (rwmap.go lines 84-106) are
    used; accesses to [read] and [len] and the mutex, which order more, are left out. *)
From Verif Require Import Base RwMapModel.

Section spec.
Context {K : Type} `{Countable K} {V : Type}.
Context (deref : nat -> V) (zero : V) (veq : V -> V -> option bool).
Local Notation act := (act deref zero veq).
Local Notation call := (call K V).
Local Notation pc := (pc K V).
Local Notation shared := (shared K).

(** An execution so far: the state, the calls made so far with the goroutines that made them, for
    each goroutine the calls (as places in that list) whose beginning happens before its next step,
    and for each entry the calls whose beginning happened before the last write to its pointer. *)
Record hist : Type := mk_hist {
  h_cf : config K V;
  h_calls : list (nat * call);
  h_thr : nat -> gset nat;
  h_ent : nat -> gset nat }.
Definition new_hist : hist := mk_hist new_config [] (fun _ => ∅) (fun _ => ∅).

(** The entry whose pointer the next step reads (compare-and-swap and swap read, too). *)
Definition observes (p : pc) : option nat :=
  match p with
  | P_unexp e | P_swap e | P_dlx _ e _ | P_dlc _ e _ | E_load e _ | E_cas e _ _ | R_load _ e _ _ => Some e
  | _ => None
  end.
(** The entry whose pointer the next step writes; a failing compare-and-swap does not write. *)
Definition writes (p : pc) (s : shared) : option nat :=
  match p with
  | P_unexp e => if decide (s_ent s e = SExp) then Some e else None       (* 194 *)
  | P_swap e => Some e                                                    (* 201 *)
  | P_dlc _ e _ => if decide (s_ent s e = SNil) then Some e else None     (* 569 *)
  | P_new => Some (s_next s)                                              (* 110 *)
  | E_cas e x _ => if decide (s_ent s e = x) then Some e else None        (* 179, 266, 320, 336, 456 *)
  | _ => None
  end.

Definition hact (h : hist) (a : action K V) : option (hist * list (event K V)) :=
  match act (h_cf h) a with
  | None => None
  | Some (cf', ev) =>
      match a with
      | AInv t c =>
          Some (mk_hist cf' (h_calls h ++ [(t, c)]) (<[t := {[length (h_calls h)]} ∪ h_thr h t]> (h_thr h)) (h_ent h), ev)
      | AStep t lab =>
          match c_thr (h_cf h) !! t with
          | None => None
          | Some (_, p) =>
              let k := h_thr h t ∪ match observes p with Some e => h_ent h e | None => ∅ end in
              Some (mk_hist cf' (h_calls h) (<[t := k]> (h_thr h))
                      (match writes p (c_sh (h_cf h)) with Some e => <[e := k]> (h_ent h) | None => h_ent h end), ev)
          end
      end
  end.

Fixpoint hrun (h : hist) (acts : list (action K V)) : option (hist * list (event K V)) :=
  match acts with
  | [] => Some (h, [])
  | a :: acts =>
      match hact h a with
      | None => None
      | Some (h1, ev) => match hrun h1 acts with None => None | Some (h2, evs) => Some (h2, ev ++ evs) end
      end
  end.

(** A call storing [v] under [k] began before the next step of [t], in this order. *)
Definition stored_before (h : hist) (t : nat) (k : K) (v : V) : Prop :=
  exists n u c p, h_calls h !! n = Some (u, c) /\ call_key c = Some k /\ call_ptr c = Some p /\ deref p = v /\
    n ∈ h_thr h t.

(** The call [c] of a goroutine returned [r], which shows that it observed [v] in the map. *)
Definition shows (c : call) (r : result V) (v : V) : Prop :=
  match c, r with
  | (CLoad _ | CSwap _ _ | CLoadAndDelete _), RVal (Some v') => v' = v
  | CLoadOrStore _ _, RLos v' true => v' = v
  | _, _ => False
  end.
End spec.
Arguments hist K {_ _} V.
