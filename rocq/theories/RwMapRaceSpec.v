(** Data races of rwmap: which memory each step touches, and how.

    The Go memory model calls two accesses to one location a data race if at least one of them
    writes, at least one of them is not a sync/atomic operation, and neither happens before the
    other.  Two accesses that are both possible next, by different goroutines, are not ordered. *)
From Verif Require Import Base RwMapModel.

Section races.
Context {K : Type} `{Countable K} {V : Type}.
Local Notation call := (call K V).
Local Notation pc := (pc K V).
Local Notation shared := (shared K).

(** The fields of the struct (rwmap.go lines 36-72) and the field [p] of each entry (lines 84-106). *)
Inductive fld : Type := FRead | FDirty | FMisses | FLen | FEnt (e : nat).
(** An access: where, whether it may write, whether it is plain (not sync/atomic). *)
Record access : Type := mk_access { a_fld : fld; a_write : bool; a_plain : bool }.
Definition rd (f : fld) : access := mk_access f false false.   (* an atomic load *)
Definition wr (f : fld) : access := mk_access f true false.    (* an atomic store, swap, add or CAS *)
Definition prd (f : fld) : access := mk_access f false true.   (* a plain read *)
Definition pwr (f : fld) : access := mk_access f true true.    (* a plain write (and read) *)

(** The next step of a goroutine at [p], inside the call [c]. *)
Definition accesses (c : call) (p : pc) (s : shared) : list access :=
  match p with
  | P_read | P_read2 => [rd FRead]                    (* loadReadOnly, lines 116-121 *)
  | P_dirty =>
      match c with
      | CLoad _ | CLoadAndDelete _ | CDelete _ | CCad _ _ =>
          [pwr FDirty; pwr FMisses; wr FRead]         (* 135-139, 294-300, 438-443; missLocked 542-550 *)
      | CStore _ _ | CSwap _ _ | CLoadOrStore _ _ =>
          [pwr FDirty; rd FRead]                      (* 229-236, 372-381; dirtyLocked 552-558 *)
      | CCas _ _ _ => [prd FDirty]                    (* 407 *)
      | _ => []
      end
  | P_unexp e => [wr (FEnt e); pwr FDirty]            (* 194; 226, 366 *)
  | P_swap e => [wr (FEnt e)]                         (* 201 *)
  | P_dlx _ e _ => [rd (FEnt e); pwr FDirty]          (* 567, 572; 561 *)
  | P_dlc _ e _ => [wr (FEnt e)]                      (* 569 *)
  | P_amend => [wr FRead]                             (* 237, 382 *)
  | P_new => [pwr FDirty; wr (FEnt (s_next s))]       (* 239, 384; 108-112 *)
  | P_miss _ | P_prom => [pwr FDirty; pwr FMisses; wr FRead]   (* 542-550; 489-491 *)
  | P_clr => [wr FRead]                               (* 521 *)
  | P_clr2 => [pwr FDirty; pwr FMisses; pwr FLen]     (* 524-527 *)
  | E_load e _ => [rd (FEnt e)]
  | E_cas e _ _ => [wr (FEnt e)]
  | P_len _ _ => [wr FLen]                            (* 210, 284, 347, 428: atomic.AddInt64 *)
  | R_load _ e _ _ => [rd (FEnt e)]
  | P_getlen => [rd FLen]                             (* 531: atomic.LoadInt64 *)
  | P_lock | P_dl _ | P_un _ | P_une _ | P_unr _ | R_next _ _ | R_call _ _ _ _ | X_ret _ => []
  end.

Definition racing (a b : access) : Prop :=
  a_fld a = a_fld b /\ (a_write a = true \/ a_write b = true) /\ (a_plain a = true \/ a_plain b = true).
(** Goroutines [t] and [u] are about to make racing accesses [a] and [b]. *)
Definition race (cf : config K V) (t u : nat) (a b : access) : Prop :=
  t <> u /\ racing a b /\ exists c p c' p', c_thr cf !! t = Some (c, p) /\ c_thr cf !! u = Some (c', p') /\
    a ∈ accesses c p (c_sh cf) /\ b ∈ accesses c' p' (c_sh cf).

(** Whether two states have the same there. *)
Definition same_fld (f : fld) (s s2 : shared) : Prop :=
  match f with
  | FRead => s_rd s = s_rd s2 /\ s_am s = s_am s2
  | FDirty => s_dirty s = s_dirty s2
  | FMisses => s_misses s = s_misses s2
  | FLen => s_len s = s_len s2
  | FEnt e => s_ent s e = s_ent s2 e
  end.
End races.
