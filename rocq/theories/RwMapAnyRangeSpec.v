(** RWMap used by one goroutine: Range with a callback that uses the map, for every key type. *)
From Verif Require Import Base GoMap GoMapSpec RwMapAnyModel RwMapAnySpec.

(** What a callback does in one turn, given all pairs it got so far (the one of this turn is the last): the
    calls it makes on the same map, and whether the Range goes on.  The callback of a Range inside it only
    looks at its arguments. *)
Definition callback (K V : Type) := list (K * V) -> list (a_call K V) * bool.
(** A turn: the pair the callback got and the calls it made. *)
Definition turn (K V : Type) : Type := (K * V) * list (a_call K V).

Section spec.
  Context {K V : Type} (eqb : K -> K -> bool) (upd : bool) (veq : V -> V -> bool).
  Context (ord : nat -> list (K * nat) -> list (K * nat)).

  (** Range, lines 493-504, with the calls the callback makes; None: one of them panicked. *)
  Fixpoint range_turns (cb : callback K V) (es : list (K * nat)) (seen : list (K * V)) (s : amap K V)
    : option (list (turn K V) * amap K V) :=
    match es with
    | [] => Some ([], s)
    | (k, e) :: es =>
        match a_slot s e with
        | APtr v =>
            let '(cs, go) := cb (seen ++ [(k, v)]) in
            match a_run eqb upd veq ord s cs with
            | Some (_, s1) =>
                if go then
                  match range_turns cb es (seen ++ [(k, v)]) s1 with
                  | Some (ts, s2) => Some (((k, v), cs) :: ts, s2)
                  | None => None
                  end
                else Some ([((k, v), cs)], s1)
            | None => None
            end
        | _ => range_turns cb es seen s
        end
    end.
  (** Range, lines 474-505 *)
  Definition RangeCalls (cb : callback K V) (s : amap K V) : option (list (turn K V) * amap K V) :=
    match (s0 <- gets id ;; (if a_amended s0 then promote else ret tt) ;;; s1 <- gets id ;; iterate ord (a_read s1)) s with
    | Ok (es, s1) => range_turns cb es [] s1
    | _ => None
    end.

  (** All calls made in some turns, in order. *)
  Definition calls_of (ts : list (turn K V)) : list (a_call K V) := concat (map snd ts).
  (** The table of a built-in map after calls. *)
  Definition after (l : list (K * V)) (cs : list (a_call K V)) : list (K * V) := snd (plain_run eqb upd veq l cs).
  (** Calls that can remove the key. *)
  Definition removes (k : K) (c : a_call K V) : Prop :=
    match c with
    | ALoadAndDelete k' | ADelete k' | ACompareAndDelete k' _ => eqb k k' = true
    | AClear => True
    | _ => False
    end.
  (** The pair is in the table. *)
  Definition holds (l : list (K * V)) (k : K) (v : V) : Prop :=
    mlookup eqb l k = Some v \/ eqb k k = false /\ (k, v) ∈ l.
End spec.
