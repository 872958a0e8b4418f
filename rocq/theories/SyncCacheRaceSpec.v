(** Data races of synccache: what happens before what around the entries.

    The fields of an entry (item.go lines 8-11) are written plainly by NewEntry (lines 13-18).  After
    that [value] is read plainly (synccache.go lines 111, 122, 127, 134, 140; Value) and [expiration] is
    accessed with sync/atomic (line 70, IsExpired, AddExpiration, SetExpiration).  So there is no data
    race on entries if NewEntry happens before every other access.

    As in RwMapHbSpec.v the only thing that orders the steps of different goroutines is here that a
    step observes what another one wrote into the pointer of an entry of the rwmap. *)
From Verif Require Import Base RwMapModel RwMapRaceSpec RwMapHbSpec SyncCacheModel.

Section spec.
Context {K : Type} `{Countable K} {V : Type}.
Context (deref : nat -> nat) (veq : V -> V -> option bool) (has_cb : bool).
Local Notation world := (world K V).
Local Notation wact := (wact K V).

(** An execution so far: the state; for each goroutine the entries whose NewEntry happens before its
    next step; for each entry of the rwmap the entries (of the cache) whose NewEntry happened before
    the last write to its pointer. *)
Record whist : Type := mk_whist {
  wh_w : world;
  wh_thr : nat -> gset nat;
  wh_slot : nat -> gset nat }.
Definition new_whist : whist := mk_whist w_init (fun _ => ∅) (fun _ => ∅).

(** What goroutine [t] knows after the action. *)
Definition learn (h : whist) (x : wact) : nat -> gset nat :=
  match x with
  | XLoc (KLoc t _) =>
      match f_pc <$> c_fr (w_cl (wh_w h)) !! t with
      | Some Q_new => <[t := {[c_new (w_cl (wh_w h))]} ∪ wh_thr h t]> (wh_thr h)
      | _ => wh_thr h
      end
  (* the program has passed the entry to this goroutine, in a way that orders the two *)
  | XLoc (KInv t (SCad _ e)) => <[t := {[e]} ∪ wh_thr h t]> (wh_thr h)
  | XMap (AStep u _) =>
      match c_thr (w_map (wh_w h)) !! u with
      | Some (_, p) =>
          <[Nat.div2 u := wh_thr h (Nat.div2 u) ∪ match observes p with Some s => wh_slot h s | None => ∅ end]>
            (wh_thr h)
      | None => wh_thr h
      end
  | _ => wh_thr h
  end.
(** What is known to who observes the pointer of an entry of the rwmap. *)
Definition publish (h : whist) (x : wact) : nat -> gset nat :=
  match x with
  | XMap (AStep u _) =>
      match c_thr (w_map (wh_w h)) !! u with
      | Some (_, p) =>
          match writes p (c_sh (w_map (wh_w h))) with
          | Some s => <[s := learn h x (Nat.div2 u)]> (wh_slot h)
          | None => wh_slot h
          end
      | None => wh_slot h
      end
  | _ => wh_slot h
  end.

Definition whstep (h : whist) (x : wact) : option (whist * list (sev K V)) :=
  match wstep deref veq has_cb (wh_w h) x with
  | Some (w, ev) => Some (mk_whist w (learn h x) (publish h x), ev)
  | None => None
  end.
Fixpoint whrun (h : whist) (xs : list wact) : option (whist * list (sev K V)) :=
  match xs with
  | [] => Some (h, [])
  | x :: xs =>
      match whstep h x with
      | None => None
      | Some (h1, ev) => match whrun h1 xs with None => None | Some (h2, evs) => Some (h2, ev ++ evs) end
      end
  end.

(** The next step of a goroutine at [p] accesses the entry [e], or hands it to the program: to the f of
    Range or as a result. *)
Definition accesses_entry (p : spc K) (e : nat) : Prop :=
  match p with
  | Q_chk2 _ e' => e' = e              (* line 70, item.go:25 (and line 140) *)
  | Q_del _ e' _ => e' = e             (* 111, 122, 127, 134 *)
  | Q_user _ e' => e' = e              (* 160 *)
  | Q_ret (SEnt e' _) => e' = e        (* 87, 97, 100, 105, 129 *)
  | _ => False
  end.

(** Two goroutines are about to make accesses to the fields of the rwmap that race. *)
Definition cache_race (w : world) (t t' : nat) (a b : access) : Prop :=
  t <> t' /\ exists i j, race (w_map w) (tid t i) (tid t' j) a b.
End spec.
Arguments whist K {_ _} V.
