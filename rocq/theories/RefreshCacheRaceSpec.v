(** Data races of refreshcache: which memory each step touches, and how (see RwMapRaceSpec.v for
    what a data race is). *)
From Verif Require Import Base RefreshCacheModel.

Section races.
Context {T E F : Type}.
Local Notation pc := (pc T E F).
Local Notation shared := (shared T E F).

(** The fields that change after construction (refreshcache.go lines 14-18 and 64-72). *)
Inductive fld : Type := FErr | FData | FLast | FLastErr | FRef | FClr.
(** An access: where, whether it writes, whether it is plain (not sync/atomic). *)
Record access : Type := mk_access { a_fld : fld; a_write : bool; a_plain : bool }.
Definition rd (f : fld) : access := mk_access f false false.   (* an atomic load *)
Definition wr (f : fld) : access := mk_access f true false.    (* an atomic store *)
Definition prd (f : fld) : access := mk_access f false true.   (* a plain read *)

(** The next step of a goroutine at [p]. *)
Definition accesses (p : pc) : list access :=
  match p with
  | G_last _ | W_last | X_last => [rd FLast]                     (* 99, 180, 156 *)
  | G_data | L_data | C_old _ | K_old _ | W_data | W_data2 => [rd FData]  (* 101, 109, 125, 142, 147, 182, 187 *)
  | G_err1 _ _ | W_err1 _ | X_lasterr => [rd FLastErr]           (* 103, 184, 164 *)
  | G_err | L_err | W_err | W_err2 _ => [rd FErr]                (* 104, 112, 185, 187 *)
  | L_last _ | L_fresh _ _ => [prd FLast]                        (* 108: r.last *)
  | L_err1 _ _ => [prd FLastErr]                                 (* 111: r.lastErr *)
  | D_data _ _ => [wr FData]                                     (* 116, 133 *)
  | D_last _ _ | D_last0 _ | K_last _ => [wr FLast]              (* 117, 122, 134, 139, 148, 151 *)
  | D_lasterr0 _ | D_lasterr _ _ => [wr FLastErr]                (* 118, 121, 135, 138 *)
  | D_err _ _ => [wr FErr]                                       (* 120, 137 *)
  | X_get | X_refresh => [rd FRef]                               (* 49, 53 *)
  | X_clear => [rd FClr]                                         (* 29 *)
  | X_setref _ => [wr FRef]                                      (* 45 *)
  | X_setclr _ => [wr FClr]                                      (* 37 *)
  | G_fresh _ _ | G_err0 _ | G_lock _ | L_now _ | L_err0 _ | R_lock _ | C_run _ _ | D_now _ | D_enow _
  | U_unlock _ | K_run _ _ | W_fresh _ | W_err0 | X_ret _ => []
  end.

Definition racing (a b : access) : Prop :=
  a_fld a = a_fld b /\ (a_write a = true \/ a_write b = true) /\ (a_plain a = true \/ a_plain b = true).
(** Goroutines [t] and [u] are about to make racing accesses [a] and [b]. *)
Definition race (cf : config T E F) (t u : nat) (a b : access) : Prop :=
  t <> u /\ racing a b /\ exists p p', c_thr cf t = Some p /\ c_thr cf u = Some p' /\
    a ∈ accesses p /\ b ∈ accesses p'.

(** Whether two states have the same there. *)
Definition same_fld (f : fld) (s s2 : shared) : Prop :=
  match f with
  | FErr => s_err s = s_err s2
  | FData => s_data s = s_data s2
  | FLast => s_last s = s_last s2
  | FLastErr => s_lasterr s = s_lasterr s2
  | FRef => s_ref s = s_ref s2
  | FClr => s_clr s = s_clr s2
  end.
End races.
