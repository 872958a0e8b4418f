(** Dllist.Sort with a comparison function that may panic.

    The panic passes through Sort, which recovers nothing: what is left is the state of the lists at
    that moment, seen by a program that recovers the panic further up. *)
From Verif Require Import Base DllistModel.
Local Open Scope Z_scope.

Section model.
  Context {T A : Type} (zero : T).

  (** dllist.go lines 255-289: [dl_SortA] of DllistSortAnySpec.v with a [cmpLess] that has a state [a]
      and panics where it answers [None].  The result is [true] and the state of cmpLess if Sort
      returns, [false] if it panics.  The panic leaves the callback of Range (lines 264-271), Range and
      the calls of Sort on the way, without anything else being done. *)
  Fixpoint dl_SortP (rf fuel : nat) (cmpLess : T -> T -> A -> option bool * A) (l : nat) (a : A)
    : M (dworld T) (bool * A) :=
    match fuel with
    | O => nofuel
    | S fuel =>
        n <- rd_l l l_len ;;
        if n <=? 1 then ret (true, a)
        else
          f <- dl_Front l ;; pivot <- rd f e_val ;;
          smaller <- dl_New zero ;; larger <- dl_New zero ;;
          f <- dl_Front l ;; e2 <- el_Next f ;;
          r1 <- el_Range rf e2 (fun e r =>
            v <- rd e e_val ;;
            let ba := cmpLess v pivot (snd r) in
            match fst ba with
            | None => ret (false, (false, snd ba))
            | Some b =>
                (if b then v <- rd e e_val ;; dl_PushBack smaller v
                 else v <- rd e e_val ;; dl_PushBack larger v) ;;;
                ret (true, (true, snd ba))
            end) (true, a) ;;
          if negb (fst r1) then ret r1
          else
            r2 <- dl_SortP rf fuel cmpLess smaller (snd r1) ;;
            if negb (fst r2) then ret r2
            else
              r3 <- dl_SortP rf fuel cmpLess larger (snd r2) ;;
              if negb (fst r3) then ret r3
              else
                dl_Clear l ;;;
                dl_Range rf smaller (fun e (_ : unit) => v <- rd e e_val ;; dl_PushBack l v ;;; ret (true, tt)) tt ;;;
                dl_PushBack l pivot ;;;
                dl_Range rf larger (fun e (_ : unit) => v <- rd e e_val ;; dl_PushBack l v ;;; ret (true, tt)) tt ;;;
                ret (true, snd r3)
    end.

  (** A call of Sort; iterations get as much fuel as there are elements, as in [dl_exec]. *)
  Definition sort_callP (cmpLess : T -> T -> A -> option bool * A) (l : nat) (a : A)
    : M (dworld T) (bool * A) := fun w =>
    dl_SortP (S (n_elems w)) (S (n_elems w)) cmpLess l a w.
End model.

(** A comparison function that does not panic, as one that might. *)
Definition total {T A : Type} (cmp : T -> T -> A -> bool * A) : T -> T -> A -> option bool * A :=
  fun x y a => (Some (fst (cmp x y a)), snd (cmp x y a)).
