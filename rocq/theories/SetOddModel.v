(** Set (/repo/set/set.go) with elements that need not be equal to themselves, and its Range with callbacks that
    change the set.  As in GenMapOddModel.v every entry has a number, and the loop of GoMapIter.v is used with these.

    Simplification, as in GoMap.v: the loops inside the other methods go over the entries there are when they start
    (a set with NaN copied onto itself might go on further). *)
From Verif Require Import Base GoMap GenMapModel SetModel GoMapIter GenMapOddModel.

Section model.
  Context {T : Type} (eqb : T -> T -> bool) (upd : bool).
  Notation IT := (nat * T)%type.
  Notation W := (world IT unit).
  Context (ord : nat -> list (IT * unit) -> list (IT * unit)).

  (** set.go:50-53 *)
  Definition is_Contain (s : ref) (v : T) : M W bool :=
    o <- i_get eqb s v ;; ret (match o with Some _ => true | None => false end).
  (** set.go:40-46 *)
  Definition is_Insert (s : ref) (v : T) : M W bool :=
    c <- is_Contain s v ;; if c : bool then ret false else i_set eqb upd s v tt ;;; ret true.
  (** set.go:58-64 *)
  Definition is_Remove (s : ref) (v : T) : M W bool :=
    c <- is_Contain s v ;; if c : bool then i_delete eqb s v ;;; ret true else ret false.
  (** set.go:85-91 with a callback that does not change [s] *)
  Definition is_Range {S} (s : ref) (f : T -> S -> M W (bool * S)) (st : S) : M W S :=
    es <- go_range ord s ;; r <- for_while es (fun e => f e.1.2) st ;; ret r.2.
  (** set.go:98-111 *)
  Definition is_IsSubSet (s set : ref) : M W bool :=
    n1 <- go_len s ;; n2 <- go_len set ;;
    if Nat.ltb n2 n1 then ret false else
    is_Range s (fun val b => c <- is_Contain set val ;; ret (if negb c then (false, false) else (true, b))) true.
  (** Inserting into [d] the elements of [s] that [set] has ([b] true) or has not. *)
  Definition is_pick (d s set : ref) (b : bool) : M W unit :=
    is_Range s (fun val (_ : unit) =>
      c <- is_Contain set val ;;
      if Bool.eqb c b then is_Insert d val ;;; ret (true, tt) else ret (true, tt)) tt.
  (** Inserting all *)
  Definition is_all (d s : ref) : M W unit :=
    is_Range s (fun val (_ : unit) => is_Insert d val ;;; ret (true, tt)) tt.

  (** The calls, as in SetModel.v *)
  Definition is_exec (c : set_call T) : M W (set_res T) :=
    match c with
    | SNew => r <- go_make ;; ret (SRef r)                                           (* 12-14 *)
    | SLen s => n <- go_len s ;; ret (SInt n)                                        (* 17-19 *)
    | SSlice s => es <- go_range ord s ;; ret (SList (map (fun e => e.1.2) es))      (* 21-23 *)
    | SClone s => r <- maps_Clone s ;; ret (SRef r)                                  (* 26-28 *)
    | SPush s vs => for_each vs (fun v => i_set eqb upd s v tt) ;;; ret (SRef s)     (* 30-35 *)
    | SInsert s v => b <- is_Insert s v ;; ret (SBool b)
    | SContain s v => b <- is_Contain s v ;; ret (SBool b)
    | SRemove s v | SContainAndRemove s v => b <- is_Remove s v ;; ret (SBool b)     (* 81-83 *)
    | SIsEmpty s => n <- go_len s ;; ret (SBool (Nat.eqb n 0))                       (* 66-68 *)
    | SClear s => go_clear s ;;; ret (SRef s)                                        (* 70-73 *)
    | SCopyFrom s set => i_copy eqb upd ord s set ;;; ret (SRef s)                   (* 75-78 *)
    | SRange s f => l <- is_Range s (fun v seen => ret (f v, seen ++ [v])) [] ;; ret (SList l)
    | SEqual s set => b <- maps_EqualFunc (eqk eqb) ord s set (fun _ _ => true) ;; ret (SBool b)   (* 93-95 *)
    | SIsSubSet s set => b <- is_IsSubSet s set ;; ret (SBool b)
    | SIsSupperSet s set => b <- is_IsSubSet set s ;; ret (SBool (negb b))           (* 114-116 *)
    | SDifference s set => d <- go_make ;; is_pick d s set false ;;; ret (SRef d)    (* 119-128 *)
    | SSymmetricDifference s set =>                                                  (* 131-146 *)
        d <- go_make ;; is_pick d s set false ;;; is_pick d set s false ;;; ret (SRef d)
    | SIntersection s set => d <- go_make ;; is_pick d s set true ;;; ret (SRef d)   (* 149-158 *)
    | SUnion s sets => d <- go_make ;; is_all d s ;;; for_each sets (fun v => is_all d v) ;;; ret (SRef d)   (* 161-174 *)
    end.
  Definition is_step (c : set_call T) (w : W) : set_res T * W :=
    match is_exec c w with
    | Ok (r, w') => (r, w')
    | Panic => (SPanic, w)
    | NoFuel => (SNoFuel, w)
    end.

  (** A callback is given the element without the number. *)
  Fixpoint no_number {A} (p : prog (K := T) (V := unit) (C := set_call T) (R := set_res T) A)
    : prog (K := IT) (V := unit) (C := set_call T) (R := set_res T) A :=
    match p with
    | PRet a => PRet a
    | PDo c k => PDo c (fun r => no_number (k r))
    | PRange m f s k => PRange m (fun q v s => no_number (f q.2 v s)) s (fun r => no_number (k r))
    end.
  (** set.go:85-91 with a callback that makes calls of its own *)
  Definition is_range {S} (m : ref) (f : T -> S -> prog (bool * S)) : W -> S -> list turn -> bool * S -> W -> Prop :=
    range idb is_step m (fun q _ s => no_number (f q.2 s)).
End model.
