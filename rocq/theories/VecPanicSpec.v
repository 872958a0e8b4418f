(** CompactFunc of vec with a comparison that may panic: what is left of the vector, seen by a program
    that recovers the panic.

    VecModel.v has the result of slices.CompactFunc (a panic ends the run there); here are its loops, one
    element at a time, as they are in Go 1.22 and as they are since Go 1.23. *)
From Verif Require Import Base VecModel VecSpec.

Section spec.
  Context {T : Type} (zero : T).
  Notation W := (vworld T).
  (** The comparison of the caller; None: it panics. *)
  Context (eq : T -> T -> option bool).

  (** The elements of the slice at the end of the loop, and how many to keep; or the elements when the
      comparison panics. *)
  Inductive end_ := Done (i : nat) (l : list T) | Stopped (l : list T).

  (** Go 1.22, slices.go: [n] turns are left; k is the loop variable, i the number kept so far.
        for k := 1; k < len(s); k++ { if !eq(s[k], s[k-1]) { if i != k { s[i] = s[k] }; i++ } } *)
  Fixpoint loop22 (n i k : nat) (l : list T) : end_ :=
    match n with
    | O => Done i l
    | S n =>
        match l !! k, l !! (k - 1) with
        | Some x, Some y =>
            match eq x y with
            | None => Stopped l
            | Some true => loop22 n i (S k) l
            | Some false => loop22 n (S i) (S k) (if Nat.eqb i k then l else <[i := x]> l)
            end
        | _, _ => Stopped l
        end
    end.
  (** Go 1.23, slices.go: the inner loop, over s2 = s[k0:].
        for k2 := 1; k2 < len(s2); k2++ { if !eq(s2[k2], s2[k2-1]) { s[k] = s2[k2]; k++ } }
      where j is k0 + k2. *)
  Fixpoint inner23 (n k j : nat) (l : list T) : end_ :=
    match n with
    | O => Done k l
    | S n =>
        match l !! j, l !! (j - 1) with
        | Some x, Some y =>
            match eq x y with
            | None => Stopped l
            | Some true => inner23 n k (S j) l
            | Some false => inner23 n (S k) (S j) (<[k := x]> l)
            end
        | _, _ => Stopped l
        end
    end.
  (** The outer loop.
        for k := 1; k < len(s); k++ { if eq(s[k], s[k-1]) { inner loop; clear(s[k:]); return s[:k] } } *)
  Fixpoint outer23 (n k : nat) (l : list T) : end_ :=
    match n with
    | O => Done k l
    | S n =>
        match l !! k, l !! (k - 1) with
        | Some x, Some y =>
            match eq x y with
            | None => Stopped l
            | Some true => inner23 n k (S k) l
            | Some false => outer23 n (S k) l
            end
        | _, _ => Stopped l
        end
    end.
  Definition compact_loop (go123 : bool) (l : list T) : end_ :=
    match l with
    | [] => Done 0 []
    | _ => if go123 then outer23 (length l - 1) 1 l else loop22 (length l - 1) 1 1 l
    end.

  (** A call returns or panics; in both cases there are vectors afterwards. *)
  Inductive outcome := Returned (w : W) | Panicked (w : W).
  (** CompactFunc, vec.go:340-342: v.d = slices.CompactFunc(v.d, eq); a panic skips the assignment.  The
      loops change only elements of v.d, so their effect is that of writing these back. *)
  Definition p_CompactFunc (go123 : bool) (v : nat) (w : W) : option outcome :=
    let d := v_d (w_vec w v) in
    match compact_loop go123 (contents w d) with
    | Done i l =>
        match write_at d 0 (take i l ++ replicate (length l - i) zero) w with
        | Ok (_, w1) => match set_d v (mk_slice (s_arr d) (s_off d) i (s_cap d)) w1 with Ok (_, w') => Some (Returned w') | _ => None end
        | _ => None
        end
    | Stopped l => match write_at d 0 l w with Ok (_, w1) => Some (Panicked w1) | _ => None end
    end.

  (** The comparison of elements n and n - 1 is the first that panics. *)
  Definition panics_at (l : list T) (n : nat) : Prop :=
    n <> 0 /\ (exists x y, l !! n = Some x /\ l !! (n - 1) = Some y /\ eq x y = None) /\
    forall m x y, 1 <= m < n -> l !! m = Some x -> l !! (m - 1) = Some y -> eq x y <> None.
  Definition never_panics (l : list T) : Prop :=
    forall m x y, 1 <= m -> l !! m = Some x -> l !! (m - 1) = Some y -> eq x y <> None.
  (** Its answers, where it has any. *)
  Definition says x y : bool := match eq x y with Some b => b | None => false end.
  (** The elements kept of the first n, then the elements as they were. *)
  Definition half_compacted (l : list T) (n : nat) : list T :=
    compacted says (take n l) ++ drop (length (compacted says (take n l))) l.
End spec.
