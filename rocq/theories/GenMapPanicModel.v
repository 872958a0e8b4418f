(** GenMap and set with callbacks that panic, the panic being recovered by the caller.

    The functions of genmap.go that call a function of the caller, once more, with what they have done
    to the maps when the panic leaves them. Nothing is deferred there or in x/exp/maps, so the panic
    ends the call where it is. *)
From Verif Require Import Base GoMap GenMapModel.

Section model.
  Context {K V : Type} (eqb : K -> K -> bool) (upd : bool) (ord : nat -> list (K * V) -> list (K * V)) (zero : V).
  Notation W := (world K V).

  (** Code of the caller: [None] if it panics, and the maps it leaves in either case. *)
  Definition P (A : Type) : Type := W -> option A * W.
  Definition pret {A} (a : A) : P A := fun w => (Some a, w).
  Definition pbind {A B} (p : P A) (f : A -> P B) : P B :=
    fun w => match p w with (Some a, w') => f a w' | (None, w') => (None, w') end.
  (** One operation of GoMap.v. If it panics (assignment to a nil map) it has changed nothing. *)
  Definition op {A} (m : M W A) : P A :=
    fun w => match m w with Ok (a, w') => (Some a, w') | _ => (None, w) end.

  (** for k, v := range m: as in GoMap.v, over the entries there at the start. *)
  Fixpoint p_for {A S} (l : list A) (body : A -> S -> P (bool * S)) (s : S) : P (bool * S) :=
    match l with
    | [] => pret (true, s)
    | x :: l => pbind (body x s) (fun r => if fst r then p_for l body (snd r) else pret (false, snd r))
    end.

  (** genmap.go:54-61, set.go:85-91 *)
  Definition p_Range {S} (m : ref) (f : K -> V -> S -> P (bool * S)) (s : S) : P (bool * S) :=
    pbind (op (go_range ord m)) (fun es => p_for es (fun e => f (fst e) (snd e)) s).

  (** genmap.go:72-80 *)
  Definition p_LoadOrStoreFunc (m : ref) (k : K) (newFunc : P V) : P (V * bool) :=
    pbind (op (go_get eqb m k)) (fun o =>
    let '(actual, loaded) := comma_ok zero o in
    if loaded then pret (actual, loaded) else
    pbind newFunc (fun actual =>
    pbind (op (go_set eqb upd m k actual)) (fun _ => pret (actual, loaded)))).

  (** genmap.go:96-98, maps.EqualFunc; the function only looks at its arguments. *)
  Definition p_EqualFunc (m m2 : ref) (eq : V -> V -> option bool) : P bool :=
    pbind (op (go_len m)) (fun n1 => pbind (op (go_len m2)) (fun n2 =>
    if negb (Nat.eqb n1 n2) then pret false else
    pbind (op (go_range ord m)) (fun es =>
    pbind (p_for es (fun e (_ : unit) =>
             pbind (op (go_get eqb m2 (fst e))) (fun o =>
             match o with
             | Some v2 => fun w => (match eq (snd e) v2 with Some b => Some (b, tt) | None => None end, w)
             | None => pret (false, tt)
             end)) tt) (fun r => pret (fst r))))).

  (** genmap.go:125-127, maps.DeleteFunc; the function only looks at its arguments. *)
  Definition p_DeleteFunc (m : ref) (del : K -> V -> option bool) : P unit :=
    pbind (op (go_range ord m)) (fun es =>
    pbind (p_for es (fun e (_ : unit) w =>
             match del (fst e) (snd e) with
             | Some true => pbind (op (go_delete eqb m (fst e))) (fun _ => pret (true, tt)) w
             | Some false => (Some (true, tt), w)
             | None => (None, w)
             end) tt) (fun _ => pret tt)).
End model.
