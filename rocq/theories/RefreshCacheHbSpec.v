(** What happens before what in executions of refreshcache.

    As in RwMapHbSpec.v: if an atomic operation observes what another one wrote, what the writing
    goroutine did before happens before what the other one does after.  The plain reads of lines 108
    and 111 and the mutex, which orders more, are left out. *)
From Verif Require Import Base RefreshCacheModel RefreshCacheRaceSpec.

Section spec.
Context {T E F : Type} (zero : T) (maxAge errAge : Z).
Local Notation pc := (pc T E F).
Local Notation call := (call F).

(** What the claims are about: a call was made, a refresh function ended. *)
Inductive item : Type :=
| ICall (c : call)
| IEnd (o : outcome T E).

(** An execution so far: the state; the calls and ends of refresh functions so far, with their
    goroutines; for each goroutine those (as places in the list) that happen before its next step; for
    each field those that happened before the last atomic write to it. *)
Record hist : Type := mk_hist {
  h_cf : config T E F;
  h_items : list (nat * item);
  h_thr : nat -> gset nat;
  h_fld : fld -> gset nat }.
Definition new_hist (f : option F) : hist := mk_hist (new_config zero f) [] (fun _ => ∅) (fun _ => ∅).

#[global] Instance fld_eq_dec : EqDecision fld.
Proof. solve_decision. Defined.

(** The field an atomic load of the next step reads, the field an atomic store of it writes. *)
Definition observes (p : pc) : option fld :=
  match accesses p with
  | [a] => if a_write a || a_plain a then None else Some (a_fld a)
  | _ => None
  end.
Definition writes (p : pc) : option fld :=
  match accesses p with
  | [a] => if a_write a then Some (a_fld a) else None
  | _ => None
  end.
(** The refresh function ends in this step; the nil function panics (lines 125, 142). *)
Definition ends (p : pc) (lab : label T E) : list item :=
  match p, lab with
  | C_run _ _, LRef o => [IEnd o]
  | C_old None, _ => [IEnd OPanic]
  | _, _ => []
  end.

Definition hact (h : hist) (a : action T E F) : option (hist * list (event T E F)) :=
  match act zero maxAge errAge (h_cf h) a with
  | None => None
  | Some (cf', ev) =>
      match a with
      | AInv t c =>
          Some (mk_hist cf' (h_items h ++ [(t, ICall c)])
                  (<[t := {[length (h_items h)]} ∪ h_thr h t]> (h_thr h)) (h_fld h), ev)
      | AStep t lab =>
          match c_thr (h_cf h) t with
          | None => None
          | Some p =>
              let k := h_thr h t ∪ match observes p with Some f => h_fld h f | None => ∅ end
                       ∪ match ends p lab with [] => ∅ | _ => {[length (h_items h)]} end in
              Some (mk_hist cf' (h_items h ++ (pair t <$> ends p lab)) (<[t := k]> (h_thr h))
                      (match writes p with Some f => <[f := k]> (h_fld h) | None => h_fld h end), ev)
          end
      end
  end.

Fixpoint hrun (h : hist) (acts : list (action T E F)) : option (hist * list (event T E F)) :=
  match acts with
  | [] => Some (h, [])
  | a :: acts =>
      match hact h a with
      | None => None
      | Some (h1, ev) => match hrun h1 acts with None => None | Some (h2, evs) => Some (h2, ev ++ evs) end
      end
  end.

(** A call, or the end of a refresh function, satisfying [P] happens before the next step of [t]. *)
Definition before (h : hist) (t : nat) (P : item -> Prop) : Prop :=
  exists n u i, h_items h !! n = Some (u, i) /\ n ∈ h_thr h t /\ P i.

(** A refresh function returned [v] without error; the zero value comes from the constructor or a
    panic instead. *)
Definition made (v : T) (i : item) : Prop := i = IEnd (OOk v) \/ (v = zero /\ i = IEnd OPanic).
(** A refresh function returned the error [e]. *)
Definition failed (e : E) (i : item) : Prop := exists v, i = IEnd (OErr v e).
(** The function [f] was handed to a call. *)
Definition gave (f : F) (i : item) : Prop :=
  i = ICall (CGet (Some f)) \/ i = ICall (CRefresh (Some f)) \/ i = ICall (CSetRefresh (Some f)).
Definition gave_clear (f : F) (i : item) : Prop :=
  i = ICall (CClear (Some f)) \/ i = ICall (CSetClear (Some f)).

(** The constructor's value is the only one there is before the first refresh. *)
Definition value_before (h : hist) (t : nat) (v : T) : Prop := v = zero \/ before h t (made v).
End spec.
Arguments item : clear implicits.
Arguments hist : clear implicits.
