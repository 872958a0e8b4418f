(** What rings are supposed to do, stated on "which lists of elements are rings" only. *)
From Verif Require Import Base RingModel Chain.
Local Open Scope Z_scope.

(** The observable state: the elements that exist, the lists of elements that are rings (read
    from any of their elements onwards), and the values. *)
Record rstate (T : Type) := mk_rstate {
  nodes : nat -> Prop;
  isring : list nat -> Prop;
  value : nat -> T }.
Arguments mk_rstate {T}. Arguments nodes {T}. Arguments isring {T}. Arguments value {T}.

(** Every element is on a ring, on exactly one, and a ring repeats no element. *)
Record rings_ok {T} (s : rstate T) : Prop := {
  ro_cover : forall x, nodes s x -> exists t, isring s (x :: t);
  ro_nodes : forall l x, isring s l -> x ∈ l -> nodes s x;
  ro_nodup : forall l, isring s l -> NoDup l;
  ro_rotate : forall l1 l2, isring s (l1 ++ l2) -> isring s (l2 ++ l1);
  ro_unique : forall x t t', isring s (x :: t) -> isring s (x :: t') -> t = t' }.

Section spec.
  Context {T : Type} (zero : T).
  Implicit Types s : rstate T.

  (** Rings without an element of [touched] are the same before and after. *)
  Definition other_rings s s' (touched : list nat) : Prop :=
    forall l, (forall x, x ∈ l -> x ∉ touched) -> isring s l <-> isring s' l.
  Definition same_nodes s s' : Prop := forall x, nodes s x <-> nodes s' x.
  Definition same_values s s' : Prop := forall x, nodes s x -> value s' x = value s x.
  Definition r_unchanged s s' : Prop :=
    same_nodes s s' /\ (forall l, isring s l <-> isring s' l) /\ same_values s s'.

  (** [n] and [k] of them: position [n] modulo the length, counted from the receiver. *)
  Inductive ring_does s s' : ring_call (T := T) -> ring_res (T := T) -> Prop :=
  | rd_New_nil n : n <= 0 -> r_unchanged s s' -> ring_does s s' (RNew n) (RPtr None)
  | rd_New n r t :
      0 < n -> Z.of_nat (length (r :: t)) = n ->
      (forall x, x ∈ r :: t -> ~ nodes s x) ->
      (forall x, nodes s' x <-> nodes s x \/ x ∈ r :: t) ->
      isring s' (r :: t) -> (forall x, x ∈ r :: t -> value s' x = zero) ->
      other_rings s s' (r :: t) -> same_values s s' ->
      ring_does s s' (RNew n) (RPtr (Some r))
  | rd_Zero r :
      ~ nodes s r -> (forall x, nodes s' x <-> nodes s x \/ x = r) ->
      isring s' [r] -> value s' r = zero -> other_rings s s' [r] -> same_values s s' ->
      ring_does s s' RZero (RPtr (Some r))
  | rd_Next r t : isring s (r :: t) -> r_unchanged s s' ->
      ring_does s s' (RNext r) (RPtr (head (t ++ [r])))
  | rd_Prev r t : isring s (r :: t) -> r_unchanged s s' ->
      ring_does s s' (RPrev r) (RPtr (last (r :: t)))
  | rd_Move r n t : isring s (r :: t) -> r_unchanged s s' ->
      ring_does s s' (RMove r n)
        (RPtr ((r :: t) !! Z.to_nat (n mod Z.of_nat (length (r :: t)))))
  | rd_Link_nil r t : isring s (r :: t) -> r_unchanged s s' ->
      ring_does s s' (RLink r None) (RPtr (head (t ++ [r])))
  | rd_Link_join r x t t' :
      isring s (r :: t) -> isring s (x :: t') -> x ∉ r :: t ->
      isring s' (r :: (x :: t') ++ t) ->
      other_rings s s' ((r :: t) ++ (x :: t')) -> same_nodes s s' -> same_values s s' ->
      ring_does s s' (RLink r (Some x)) (RPtr (head (t ++ [r])))
  | rd_Link_split r x u v :
      isring s (r :: u ++ x :: v) ->
      isring s' (r :: x :: v) -> (u <> [] -> isring s' u) ->
      other_rings s s' (r :: u ++ x :: v) -> same_nodes s s' -> same_values s s' ->
      ring_does s s' (RLink r (Some x)) (RPtr (head (u ++ [x])))
  | rd_Link_self r t :
      isring s (r :: t) ->
      isring s' [r] -> (t <> [] -> isring s' t) ->
      other_rings s s' (r :: t) -> same_nodes s s' -> same_values s s' ->
      ring_does s s' (RLink r (Some r)) (RPtr (head (t ++ [r])))
  | rd_Unlink_nil r n : n <= 0 -> r_unchanged s s' -> ring_does s s' (RUnlink r n) (RPtr None)
  | rd_Unlink r n t k :
      0 < n -> isring s (r :: t) -> k = Z.to_nat (n mod Z.of_nat (length (r :: t))) ->
      isring s' (r :: drop k t) -> (k <> 0%nat -> isring s' (take k t)) ->
      other_rings s s' (r :: t) -> same_nodes s s' -> same_values s s' ->
      ring_does s s' (RUnlink r n) (RPtr (head (t ++ [r])))
  | rd_Len r t : isring s (r :: t) -> r_unchanged s s' ->
      ring_does s s' (RLen (Some r)) (RInt (Z.of_nat (length (r :: t))))
  | rd_Len_nil : r_unchanged s s' -> ring_does s s' (RLen None) (RInt 0)
  | rd_Do r t : isring s (r :: t) -> r_unchanged s s' ->
      ring_does s s' (RDo (Some r)) (RVals (map (value s) (r :: t)))
  | rd_Do_nil : r_unchanged s s' -> ring_does s s' (RDo None) (RVals [])
  | rd_Set r v :
      same_nodes s s' -> (forall l, isring s l <-> isring s' l) ->
      value s' r = v -> (forall x, x <> r -> nodes s x -> value s' x = value s x) ->
      ring_does s s' (RSet r v) RUnit.

  (** The pointers a call mentions. *)
  Definition ring_args (c : ring_call (T := T)) : list nat :=
    match c with
    | RNew _ | RZero | RLen None | RDo None => []
    | RNext r | RPrev r | RMove r _ | RLink r None | RUnlink r _
    | RLen (Some r) | RDo (Some r) | RSet r _ => [r]
    | RLink r (Some x) => [r; x]
    end.

  (** Executions: every call gets pointers to existing elements. *)
  Inductive ring_history : rheap T -> list (ring_call (T := T) * ring_res (T := T)) -> rheap T -> Prop :=
  | rh_nil h : ring_history h [] h
  | rh_cons h c r h1 tr h2 :
      (forall x, x ∈ ring_args c -> (x < r_fresh h)%nat) ->
      ring_exec zero c h = Ok (r, h1) ->
      ring_history h1 tr h2 -> ring_history h ((c, r) :: tr) h2.

  Inductive ring_behaves : rstate T -> list (ring_call (T := T) * ring_res (T := T)) -> rstate T -> Prop :=
  | rb_nil s : ring_behaves s [] s
  | rb_cons s c r s1 tr s2 :
      ring_does s s1 c r -> rings_ok s1 -> ring_behaves s1 tr s2 ->
      ring_behaves s ((c, r) :: tr) s2.

  (** Reading a heap: a struct whose next is nil counts as a ring of one. *)
  Definition lnx (h : rheap T) (x : nat) : option nat :=
    match r_next h x with None => Some x | Some y => Some y end.
  Definition lpv (h : rheap T) (x : nat) : option nat :=
    match r_next h x with None => Some x | Some _ => r_prev h x end.
  Definition heap_ring (h : rheap T) (l : list nat) : Prop :=
    match l with
    | [] => False
    | r :: t => NoDup l /\ (forall x, x ∈ l -> (x < r_fresh h)%nat) /\
                chain (lnx h) (lpv h) (r :: t ++ [r])
    end.
  Definition rabs (h : rheap T) : rstate T :=
    mk_rstate (fun x => (x < r_fresh h)%nat) (heap_ring h) (r_val h).
End spec.

(** Running a list of calls, for the examples. *)
Fixpoint ring_run {T} (zero : T) (cs : list (ring_call (T := T))) (h : rheap T)
  : option (list (ring_res (T := T)) * rheap T) :=
  match cs with
  | [] => Some ([], h)
  | c :: cs =>
      if forallb (fun x => x <? r_fresh h)%nat (ring_args c) then
        match ring_exec zero c h with
        | Ok (r, h1) => match ring_run zero cs h1 with Some (rs, h2) => Some (r :: rs, h2) | None => None end
        | _ => None
        end
      else None
  end.
