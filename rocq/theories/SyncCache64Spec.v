(** The machine of synccache with 64-bit integers. *)
From Verif Require Import Base Int64 RwMapModel SyncCacheModel.
Local Open Scope Z_scope.

Section spec.
Context {K : Type} `{Countable K} {V : Type}.
Context (deref : nat -> nat) (veq : V -> V -> option bool) (has_cb : bool).

(** UnixMilli and the atomic addition wrap around.  ([time.Now().Add] works on seconds and does not
    overflow with any duration.) *)
Definition ms64 (ns : Z) : Z := wrap64 (ms ns).
Definition cl_loc64 (s : cstate K V) (a : sact K V) : option (cstate K V * list (sev K V)) :=
  match a with
  | KSet e at_ =>
      match c_ent s !! e with
      | Some (v, _) => Some (mk_cstate (<[e := (v, ms64 at_)]> (c_ent s)) (c_new s) (c_fr s), [SSet e at_])
      | None => None
      end
  | KAdd e d =>
      match c_ent s !! e with
      | Some (v, x) => Some (mk_cstate (<[e := (v, wrap64 (x + Z.quot d 1000000))]> (c_ent s)) (c_new s) (c_fr s),
                            [SAdd e d])
      | None => None
      end
  | KLoc t (LClock n) =>
      match c_fr s !! t with
      | None => None
      | Some (mk_frame c now p) =>
          match p with
          | Q_new =>
              match c with
              | SStore _ v d | SLoadOrStore _ v d =>
                  let e := c_new s in
                  Some (mk_cstate (<[e := (v, ms64 (n + d))]> (c_ent s)) (S e)
                                  (<[t := mk_frame c now (Q_put e)]> (c_fr s)),
                        [SClock t n; SNew t e v (ms64 (n + d))])
              | _ => None
              end
          | Q_now => Some (set_frame t c (ms64 n) Q_get s, [SClock t n])
          | Q_chk k e => Some (set_frame t c (ms64 n) (Q_chk2 k e) s, [SClock t n])
          | _ => None
          end
      end
  | _ => cl_loc veq has_cb s a
  end.
Definition wstep64 (w : world K V) (x : wact K V) : option (world K V * list (sev K V)) :=
  match x with
  | XLoc (KBeg _ _ _) => None
  | XLoc a =>
      match cl_loc64 (w_cl w) a with
      | Some (s, ev) => Some (mk_world s (w_map w), ev)
      | None => None
      end
  | _ => wstep deref veq has_cb w x
  end.
Fixpoint wrun64 (w : world K V) (xs : list (wact K V)) : option (world K V * list (sev K V)) :=
  match xs with
  | [] => Some (w, [])
  | x :: xs =>
      match wstep64 w x with
      | None => None
      | Some (w1, ev) =>
          match wrun64 w1 xs with
          | None => None
          | Some (w2, evs) => Some (w2, ev ++ evs)
          end
      end
  end.

(** The durations of a call fit [time.Duration]. *)
Definition call_ok (c : scall K V) : Prop :=
  match c with SStore _ _ d | SLoadOrStore _ _ d => is_int64 d | _ => True end.
(** Clock readings since 1970 that fit UnixNano; durations that fit [time.Duration]; expirations set
    within 2^62 milliseconds (146 million years) of 1970. *)
Definition mild (x : wact K V) : Prop :=
  match x with
  | XLoc (KInv _ c) => call_ok c
  | XLoc (KLoc _ (LClock n)) => 0 <= n < 2^63
  | XLoc (KSet _ at_) => - 2^62 <= ms at_ <= 2^62
  | XLoc (KAdd _ d) => is_int64 d
  | _ => True
  end.
Definition is_add (x : wact K V) : bool := match x with XLoc (KAdd _ _) => true | _ => false end.
Definition adds (xs : list (wact K V)) : nat := length (List.filter is_add xs).
End spec.
