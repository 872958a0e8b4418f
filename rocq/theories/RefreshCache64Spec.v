(** The machine of refreshcache with 64-bit integers. *)
From Verif Require Import Base Int64 RefreshCacheModel.
Local Open Scope Z_scope.

Section spec.
Context {T E F : Type} (zero : T) (maxAge errAge : Z).
Local Notation pc := (pc T E F).
Local Notation shared := (shared T E F).
Local Notation label := (label T E).
Local Notation event := (event T E F).
Local Notation config := (config T E F).

(** The subtractions of lines 100, 103, 108, 111, 181 and 184 wrap around; there is no other arithmetic. *)
Definition step64 (t : nat) (p : pc) (s : shared) (lab : label)
    : option (option pc * shared * list event) :=
  match p, lab with
  | G_fresh f l, LNow n =>
      if (maxAge <? 0) && (0 <? l) then None
      else if wrap64 (n - l) <? maxAge then Some (Some G_data, s, [ENow t n])
      else Some (Some (G_err0 f), s, [ENow t n])
  | G_err1 f n, LTick =>
      if wrap64 (n - s_lasterr s) <? errAge then Some (Some G_err, s, []) else Some (Some (G_lock f), s, [])
  | L_fresh f n, LTick =>
      if wrap64 (n - s_last s) <? maxAge then Some (Some L_data, s, []) else Some (Some (L_err0 f), s, [])
  | L_err1 f n, LTick =>
      if wrap64 (n - s_lasterr s) <? errAge then Some (Some L_err, s, []) else Some (Some (C_old f), s, [])
  | W_fresh l, LNow n =>
      if (maxAge <? 0) && (0 <? l) then None
      else if wrap64 (n - l) <? maxAge then Some (Some W_data, s, [ENow t n])
      else Some (Some W_err0, s, [ENow t n])
  | W_err1 n, LTick =>
      if wrap64 (n - s_lasterr s) <? errAge then Some (Some W_err, s, []) else Some (Some W_data2, s, [])
  | _, _ => step zero maxAge errAge t p s lab
  end.
Definition act64 (cf : config) (a : action T E F) : option (config * list event) :=
  match a with
  | AInv t c => act zero maxAge errAge cf (AInv t c)
  | AStep t lab =>
      match c_thr cf t with
      | None => None
      | Some p =>
          match step64 t p (c_sh cf) lab with
          | None => None
          | Some (p', s', ev) => Some (mk_config s' (<[t := p']> (c_thr cf)), ev)
          end
      end
  end.
Fixpoint run64 (cf : config) (acts : list (action T E F)) : option (config * list event) :=
  match acts with
  | [] => Some (cf, [])
  | a :: rest =>
      match act64 cf a with
      | None => None
      | Some (cf1, ev) =>
          match run64 cf1 rest with
          | None => None
          | Some (cf2, evs) => Some (cf2, ev ++ evs)
          end
      end
  end.

(** Every reading of the clock (nanoseconds since 1970) is between these times. *)
Definition clock_within (lo hi : Z) (acts : list (action T E F)) : Prop :=
  forall t n, AStep t (LNow n) ∈ acts -> lo <= n <= hi.
End spec.
