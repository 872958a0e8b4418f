(** rwmap (/repo/rwmap/rwmap.go) with keys of an interface type, some of which hold a value that cannot be hashed
    (a slice, say).  The keys of RwMapModel.v are the others.  A lookup with a key that cannot be hashed panics,
    also in an empty and in a nil map.  Every call that is given a key looks it up in the read map first (lines 126,
    215, 288, 351, 395, 432), before it takes the mutex.  The panic runs the function deferred by LoadOrStore (208-212),
    LoadAndDelete (282-286), Swap (345-349) or CompareAndDelete (426-430), with the named results still at their zero
    values, and is then recovered by the caller. *)
From Verif Require Import Base RwMapModel.

(** A call with such a key *)
Inductive bcall := BLoad | BStore | BSwap | BLoadOrStore | BLoadAndDelete | BDelete | BCas | BCad.
(** Its place: the load of [read] and the lookup; the atomic.AddInt64 of the deferred function; about to end *)
Inductive bpc := B_read | B_len | B_ret.
(** [!loaded] holds in the functions deferred by LoadOrStore (209) and Swap (346), which Store calls (159); [loaded] and
    [deleted] do not hold in the others (283, 427). *)
Definition deferred_adds (b : bcall) : bool := match b with BStore | BSwap | BLoadOrStore => true | _ => false end.

Section model.
Context {K : Type} `{Countable K} {V : Type}.
Context (deref : nat -> V) (zero : V) (veq : V -> V -> option bool).

Record hconfig : Type := mk_hconfig { h_cf : config K V; h_bad : gmap nat (bcall * bpc) }.
Definition new_hconfig : hconfig := mk_hconfig new_config ∅.
(** An action of RwMapModel.v, the beginning of a call with such a key, a step of it. *)
Inductive haction : Type := HAct (a : action K V) | HInv (t : nat) (b : bcall) | HStep (t : nat).
Inductive hevent : Type := HEv (ev : event K V) | HCall (t : nat) (b : bcall) | HPanic (t : nat).

Definition hact (hc : hconfig) (a : haction) : option (hconfig * list hevent) :=
  match a with
  | HAct a =>
      match a with
      | AInv t _ => match h_bad hc !! t with Some _ => None | None => Some tt end
      | AStep _ _ => Some tt
      end ≫= fun _ =>
      match act deref zero veq (h_cf hc) a with
      | Some (cf, ev) => Some (mk_hconfig cf (h_bad hc), HEv <$> ev)
      | None => None
      end
  | HInv t b =>
      match c_thr (h_cf hc) !! t, h_bad hc !! t with
      | None, None => Some (mk_hconfig (h_cf hc) (<[t := (b, B_read)]> (h_bad hc)), [HCall t b])
      | _, _ => None
      end
  | HStep t =>
      match h_bad hc !! t with
      | Some (b, B_read) => Some (mk_hconfig (h_cf hc) (<[t := (b, if deferred_adds b then B_len else B_ret)]> (h_bad hc)), [])
      | Some (b, B_len) =>
          let s := c_sh (h_cf hc) in
          Some (mk_hconfig (mk_config (set_len (s_len s + 1) s) (c_thr (h_cf hc))) (<[t := (b, B_ret)]> (h_bad hc)), [])
      | Some (_, B_ret) => Some (mk_hconfig (h_cf hc) (delete t (h_bad hc)), [HPanic t])
      | None => None
      end
  end.
Fixpoint hrun (hc : hconfig) (acts : list haction) : option (hconfig * list hevent) :=
  match acts with
  | [] => Some (hc, [])
  | a :: rest =>
      match hact hc a with
      | None => None
      | Some (hc1, ev) =>
          match hrun hc1 rest with
          | None => None
          | Some (hc2, evs) => Some (hc2, ev ++ evs)
          end
      end
  end.
End model.
Arguments hconfig K {_ _} V. Arguments haction : clear implicits. Arguments hevent : clear implicits.
