(** What the doubly linked list is supposed to do, stated on sequences of elements only. *)
From Verif Require Import Base DllistModel.
Local Open Scope Z_scope.

(** The observable state: the lists, the sequence of elements of each list, the value of each
    element, the elements ever made, and those whose handle is still good (not in a list that was
    cleared or sorted under them). *)
Record dstate (T : Type) := mk_dstate {
  dlists : nat -> Prop;
  dseq : nat -> list nat;
  dval : nat -> T;
  known : nat -> Prop;
  live : nat -> Prop }.
Arguments mk_dstate {T}. Arguments dlists {T}. Arguments dseq {T}. Arguments dval {T}.
Arguments known {T}. Arguments live {T}.

(** No element occurs twice, in one list or in two. *)
Record seqs_ok {T} (s : dstate T) : Prop := {
  so_nodup : forall l, dlists s l -> NoDup (dseq s l);
  so_disjoint : forall l l' e, dlists s l -> dlists s l' -> e ∈ dseq s l -> e ∈ dseq s l' -> l = l';
  so_live : forall l e, dlists s l -> e ∈ dseq s l -> live s e;
  so_known : forall e, live s e -> known s e }.

Section spec.
  Context {T : Type} (zero : T).
  Implicit Types (s : dstate T) (l : nat).

  (** The part of the state that no call but the stated one changes. *)
  Definition only_list s s' l (ids : list nat) : Prop :=
    dseq s' l = ids /\ (forall l', dlists s l' -> dlists s' l') /\
    (forall l', dlists s l' -> l' <> l -> dseq s' l' = dseq s l').
  Definition no_list s s' : Prop :=
    (forall l', dlists s l' -> dlists s' l' /\ dseq s' l' = dseq s l').
  Definition same_vals s s' : Prop := forall e, known s e -> dval s' e = dval s e.
  Definition same_live s s' : Prop := forall e, known s e -> live s' e <-> live s e.
  Definition still_known s s' : Prop := forall e, known s e -> known s' e.
  Definition rest s s' : Prop := same_vals s s' /\ same_live s s' /\ still_known s s'.
  Definition d_same s s' : Prop := no_list s s' /\ rest s s'.
  (** [es] are new elements with values [vs]. *)
  Definition fresh_elems s s' (es : list nat) (vs : list T) : Prop :=
    NoDup es /\ (forall e, e ∈ es -> ~ known s e /\ known s' e /\ live s' e) /\ map (dval s') es = vs.

  (** [e] belongs to no list. *)
  Definition loose s (e : nat) : Prop := forall l, dlists s l -> e ∉ dseq s l.

  (** What a callback sees: elements up to and including the first it rejects. *)
  Fixpoint seen (f : nat -> T -> bool) (v : nat -> T) (ids : list nat) : bool * list nat :=
    match ids with
    | [] => (true, [])
    | e :: ids => if f e (v e) then let r := seen f v ids in (fst r, e :: snd r) else (false, [e])
    end.

  (** Stable sorting, independently of any algorithm: equal values keep their order. *)
  Definition equivalent (less : T -> T -> bool) (x y : T) : bool := negb (less x y) && negb (less y x).
  Definition stably_sorted (less : T -> T -> bool) (vs vs' : list T) : Prop :=
    vs' ≡ₚ vs /\
    (forall i j x y, (i < j)%nat -> vs' !! i = Some x -> vs' !! j = Some y -> less y x = false) /\
    (forall x, filter (fun y => equivalent less x y = true) vs' = filter (fun y => equivalent less x y = true) vs).
  Definition strict_weak (less : T -> T -> bool) : Prop :=
    (forall x, less x x = false) /\
    (forall x y z, less x y = true -> less y z = true -> less x z = true) /\
    (forall x y z, less x y = true -> less x z = true \/ less z y = true).

  Definition inserted s s' l (pre : list nat) (e : nat) (post : list nat) (v : T) : Prop :=
    dseq s l = pre ++ post /\ fresh_elems s s' [e] [v] /\ only_list s s' l (pre ++ e :: post) /\ rest s s'.
  Definition moved s s' l (ids' : list nat) : Prop := only_list s s' l ids' /\ rest s s'.

  (** The values that PushBackListTo and PushFrontListTo put after the mark [m] when the list is
      given itself, [pre] and [post] being the values before and after the mark: the walk over the
      list runs into the copies.  As many values as the list had elements; the one put in first
      ends up last. *)
  Definition self_back (pre : list T) (m : T) (post : list T) : list T :=
    rev (take (S (length pre + length post)) (pre ++ m :: m :: rev pre ++ post)).
  Definition self_front (pre : list T) (m : T) (post : list T) : list T :=
    match post with
    | [] => pre ++ [m]
    | _ => let n := S (length pre + length post) in rev (take n (concat (replicate n (rev post))))
    end.

  Inductive dl_does s s' : dl_call (T := T) -> dl_res (T := T) -> Prop :=
  | dd_New l : ~ dlists s l -> dlists s' l -> dseq s' l = [] -> d_same s s' -> dl_does s s' DNew (DList l)
  | dd_Zero l : ~ dlists s l -> dlists s' l -> dseq s' l = [] -> d_same s s' -> dl_does s s' DZero (DList l)
  | dd_Clear l :
      only_list s s' l [] -> same_vals s s' -> still_known s s' ->
      (forall e, known s e -> live s' e <-> live s e /\ e ∉ dseq s l) ->
      dl_does s s' (DClear l) (DList l)
  | dd_Get l i : d_same s s' -> dl_does s s' (DGet l i) (DElem (getZ (dseq s l) i))
  | dd_Len l : d_same s s' -> dl_does s s' (DLen l) (DInt (Z.of_nat (length (dseq s l))))
  | dd_Front l : d_same s s' -> dl_does s s' (DFront l) (DElem (head (dseq s l)))
  | dd_Back l : d_same s s' -> dl_does s s' (DBack l) (DElem (last (dseq s l)))
  | dd_Remove l e pre post :
      dseq s l = pre ++ e :: post -> only_list s s' l (pre ++ post) -> rest s s' ->
      dl_does s s' (DRemove l e) (DVal (dval s e))
  | dd_Remove_foreign l e : e ∉ dseq s l -> d_same s s' -> dl_does s s' (DRemove l e) (DVal (dval s e))
  | dd_PushFront l v e : inserted s s' l [] e (dseq s l) v -> dl_does s s' (DPushFront l v) (DElem (Some e))
  | dd_PushBack l v e : inserted s s' l (dseq s l) e [] v -> dl_does s s' (DPushBack l v) (DElem (Some e))
  | dd_InsertBefore l v m pre post e :
      inserted s s' l pre e (m :: post) v -> dl_does s s' (DInsertBefore l v m) (DElem (Some e))
  | dd_InsertBefore_foreign l v m :
      m ∉ dseq s l -> d_same s s' -> dl_does s s' (DInsertBefore l v m) (DElem None)
  | dd_InsertAfter l v m pre post e :
      inserted s s' l (pre ++ [m]) e post v -> dl_does s s' (DInsertAfter l v m) (DElem (Some e))
  | dd_InsertAfter_foreign l v m :
      m ∉ dseq s l -> d_same s s' -> dl_does s s' (DInsertAfter l v m) (DElem None)
  | dd_MoveToFront l e pre post :
      dseq s l = pre ++ e :: post -> moved s s' l (e :: pre ++ post) -> dl_does s s' (DMoveToFront l e) DUnit
  | dd_MoveToFront_foreign l e : e ∉ dseq s l -> d_same s s' -> dl_does s s' (DMoveToFront l e) DUnit
  | dd_MoveToBack l e pre post :
      dseq s l = pre ++ e :: post -> moved s s' l (pre ++ post ++ [e]) -> dl_does s s' (DMoveToBack l e) DUnit
  | dd_MoveToBack_foreign l e : e ∉ dseq s l -> d_same s s' -> dl_does s s' (DMoveToBack l e) DUnit
  | dd_MoveBefore l e m pre post a b :
      dseq s l = pre ++ e :: post -> pre ++ post = a ++ m :: b -> moved s s' l (a ++ e :: m :: b) ->
      dl_does s s' (DMoveBefore l e m) DUnit
  | dd_MoveBefore_none l e m :
      e ∉ dseq s l \/ m ∉ dseq s l \/ e = m -> d_same s s' -> dl_does s s' (DMoveBefore l e m) DUnit
  | dd_MoveAfter l e m pre post a b :
      dseq s l = pre ++ e :: post -> pre ++ post = a ++ m :: b -> moved s s' l (a ++ m :: e :: b) ->
      dl_does s s' (DMoveAfter l e m) DUnit
  | dd_MoveAfter_none l e m :
      e ∉ dseq s l \/ m ∉ dseq s l \/ e = m -> d_same s s' -> dl_does s s' (DMoveAfter l e m) DUnit
  | dd_PushBackList l o es :
      fresh_elems s s' es (map (dval s) (dseq s o)) -> only_list s s' l (dseq s l ++ es) -> rest s s' ->
      dl_does s s' (DPushBackList l o) DUnit
  | dd_PushFrontList l o es :
      fresh_elems s s' es (map (dval s) (dseq s o)) -> only_list s s' l (es ++ dseq s l) -> rest s s' ->
      dl_does s s' (DPushFrontList l o) DUnit
  (* what the code does, not what one would expect: reversed *)
  | dd_PushBackListTo l o m pre post es :
      l <> o -> dseq s l = pre ++ m :: post -> fresh_elems s s' es (rev (map (dval s) (dseq s o))) ->
      only_list s s' l (pre ++ m :: es ++ post) -> rest s s' ->
      dl_does s s' (DPushBackListTo l o m) DUnit
  | dd_PushBackListTo_self l m pre post es :
      dseq s l = pre ++ m :: post ->
      fresh_elems s s' es (self_back (map (dval s) pre) (dval s m) (map (dval s) post)) ->
      only_list s s' l (pre ++ m :: es ++ post) -> rest s s' ->
      dl_does s s' (DPushBackListTo l l m) DUnit
  | dd_PushBackListTo_foreign l o m :
      m ∉ dseq s l -> d_same s s' -> dl_does s s' (DPushBackListTo l o m) DUnit
  | dd_PushFrontListTo l o m pre post es :
      l <> o -> dseq s l = pre ++ m :: post -> fresh_elems s s' es (map (dval s) (dseq s o)) ->
      only_list s s' l (pre ++ m :: es ++ post) -> rest s s' ->
      dl_does s s' (DPushFrontListTo l o m) DUnit
  | dd_PushFrontListTo_self l m pre post es :
      dseq s l = pre ++ m :: post ->
      fresh_elems s s' es (self_front (map (dval s) pre) (dval s m) (map (dval s) post)) ->
      only_list s s' l (pre ++ m :: es ++ post) -> rest s s' ->
      dl_does s s' (DPushFrontListTo l l m) DUnit
  | dd_PushFrontListTo_foreign l o m :
      m ∉ dseq s l -> d_same s s' -> dl_does s s' (DPushFrontListTo l o m) DUnit
  | dd_Swap l x y a b pre mid post :
      (x = a /\ y = b) \/ (x = b /\ y = a) ->
      dseq s l = pre ++ a :: mid ++ b :: post -> moved s s' l (pre ++ b :: mid ++ a :: post) ->
      dl_does s s' (DSwap l x y) DUnit
  | dd_Swap_none l x y :
      x ∉ dseq s l \/ y ∉ dseq s l \/ x = y -> d_same s s' -> dl_does s s' (DSwap l x y) DUnit
  | dd_Range l f : d_same s s' ->
      dl_does s s' (DRange l f) (DElems (fst (seen f (dval s) (dseq s l))) (snd (seen f (dval s) (dseq s l))))
  | dd_Slice l : d_same s s' -> dl_does s s' (DSlice l) (DVals (map (dval s) (dseq s l)))
  | dd_Sort l less es vs :
      (* the values come out as [vs]; a stable sort if [less] is a strict weak order *)
      vs ≡ₚ map (dval s) (dseq s l) ->
      (strict_weak less -> stably_sorted less (map (dval s) (dseq s l)) vs) ->
      (1 < length (dseq s l))%nat ->
      fresh_elems s s' es vs -> only_list s s' l es -> same_vals s s' -> still_known s s' ->
      (forall e, known s e -> live s' e <-> live s e /\ e ∉ dseq s l) ->
      dl_does s s' (DSort l less) DUnit
  | dd_Sort_short l less : (length (dseq s l) <= 1)%nat -> d_same s s' -> dl_does s s' (DSort l less) DUnit
  | dd_Next e l pre post : dlists s l -> dseq s l = pre ++ e :: post -> d_same s s' ->
      dl_does s s' (DNext e) (DElem (head post))
  | dd_Next_loose e : loose s e -> d_same s s' -> dl_does s s' (DNext e) (DElem None)
  | dd_Prev e l pre post : dlists s l -> dseq s l = pre ++ e :: post -> d_same s s' ->
      dl_does s s' (DPrev e) (DElem (last pre))
  | dd_Prev_loose e : loose s e -> d_same s s' -> dl_does s s' (DPrev e) (DElem None)
  | dd_ERemove e l pre post : dlists s l -> dseq s l = pre ++ e :: post ->
      only_list s s' l (pre ++ post) -> rest s s' -> dl_does s s' (DERemove e) (DVal (dval s e))
  | dd_ERemove_loose e : loose s e -> d_same s s' -> dl_does s s' (DERemove e) (DVal (dval s e))
  | dd_EInsertAfter e v l pre post x : dlists s l ->
      inserted s s' l (pre ++ [e]) x post v -> dl_does s s' (DEInsertAfter e v) (DElem (Some x))
  | dd_EInsertAfter_loose e v : loose s e -> d_same s s' -> dl_does s s' (DEInsertAfter e v) (DElem None)
  | dd_EInsertBefore e v l pre post x : dlists s l ->
      inserted s s' l pre x (e :: post) v -> dl_does s s' (DEInsertBefore e v) (DElem (Some x))
  | dd_EInsertBefore_loose e v : loose s e -> d_same s s' -> dl_does s s' (DEInsertBefore e v) (DElem None)
  | dd_ERange e f l pre post : dlists s l -> dseq s l = pre ++ e :: post -> d_same s s' ->
      dl_does s s' (DERange e f) (DElems true (snd (seen f (dval s) (e :: post))))
  | dd_ERange_loose e f : loose s e -> d_same s s' -> dl_does s s' (DERange e f) (DElems true [e])
  | dd_Value e : d_same s s' -> dl_does s s' (DValue e) (DVal (dval s e))
  | dd_SetValue e v :
      no_list s s' -> dval s' e = v -> (forall x, known s x -> x <> e -> dval s' x = dval s x) ->
      same_live s s' -> still_known s s' -> dl_does s s' (DSetValue e v) DUnit.

  (** The lists and handles a call mentions. *)
  Definition call_lists (c : dl_call (T := T)) : list nat :=
    match c with
    | DNew | DZero => []
    | DClear l | DGet l _ | DLen l | DFront l | DBack l | DRemove l _ | DPushFront l _ | DPushBack l _
    | DInsertBefore l _ _ | DInsertAfter l _ _ | DMoveToFront l _ | DMoveToBack l _ | DMoveBefore l _ _
    | DMoveAfter l _ _ | DSwap l _ _ | DRange l _ | DSlice l | DSort l _ => [l]
    | DPushBackList l o | DPushFrontList l o | DPushBackListTo l o _ | DPushFrontListTo l o _ => [l; o]
    | DNext _ | DPrev _ | DERemove _ | DEInsertAfter _ _ | DEInsertBefore _ _ | DERange _ _
    | DValue _ | DSetValue _ _ => []
    end.
  Definition call_elems (c : dl_call (T := T)) : list nat :=
    match c with
    | DRemove _ e | DMoveToFront _ e | DMoveToBack _ e | DNext e | DPrev e | DERemove e
    | DEInsertAfter e _ | DEInsertBefore e _ | DERange e _ | DValue e | DSetValue e _ => [e]
    | DInsertBefore _ _ m | DInsertAfter _ _ m | DPushBackListTo _ _ m | DPushFrontListTo _ _ m => [m]
    | DMoveBefore _ e m | DMoveAfter _ e m | DSwap _ e m => [e; m]
    | _ => []
    end.
  (** Handles are good. *)
  Definition call_ok s (c : dl_call (T := T)) : Prop :=
    (forall l, l ∈ call_lists c -> dlists s l) /\ (forall e, e ∈ call_elems c -> live s e).

  (** Reading the structs: follow next from the root, as often as the length says. *)
  Fixpoint walk (nx : nat -> option nat) (n : nat) (p : option nat) : list nat :=
    match n, p with
    | S n, Some e => e :: walk nx n (nx e)
    | _, _ => []
    end.
  Definition seq_of (w : dworld T) (l : nat) : list nat :=
    walk (e_next w) (Z.to_nat (l_len w l)) (e_next w (l_root w l)).
  Definition is_root (w : dworld T) (e : nat) : Prop := exists l, (l < n_lists w)%nat /\ l_root w l = e.
  Definition dabs (w : dworld T) : dstate T :=
    mk_dstate (fun l => (l < n_lists w)%nat) (seq_of w) (e_val w)
      (fun e => (e < n_elems w)%nat)
      (fun e => (e < n_elems w)%nat /\ ~ is_root w e /\
                forall l, e_list w e = Some l -> (l < n_lists w)%nat /\ e ∈ seq_of w l).

  Inductive dl_history : dworld T -> list (dl_call (T := T) * dl_res (T := T)) -> dworld T -> Prop :=
  | dh_nil w : dl_history w [] w
  | dh_cons w c r w1 tr w2 :
      call_ok (dabs w) c -> dl_exec zero c w = Ok (r, w1) ->
      dl_history w1 tr w2 -> dl_history w ((c, r) :: tr) w2.

  Inductive dl_behaves : dstate T -> list (dl_call (T := T) * dl_res (T := T)) -> dstate T -> Prop :=
  | db_nil s : dl_behaves s [] s
  | db_cons s c r s1 tr s2 :
      call_ok s c -> dl_does s s1 c r -> seqs_ok s1 -> dl_behaves s1 tr s2 ->
      dl_behaves s ((c, r) :: tr) s2.

  (** The states a program can reach with good handles. *)
  Definition reached (w : dworld T) : Prop := exists tr, dl_history (empty_dworld zero) tr w.

  (** Calling [f] on each element of a fixed list, in order, until it says stop. *)
  Fixpoint fold_until {A} (f : option nat -> A -> M (dworld T) (bool * A)) (a : A) (ids : list nat)
    : M (dworld T) (bool * A) :=
    match ids with
    | [] => ret (true, a)
    | x :: ids => ba <- f (Some x) a ;; if fst ba then fold_until f (snd ba) ids else ret (false, snd ba)
    end.

  (** Two observable states with nothing to tell them apart. *)
  Definition dstate_eq s s' : Prop :=
    (forall l, dlists s l <-> dlists s' l) /\ (forall l, dlists s l -> dseq s l = dseq s' l) /\
    (forall e, dval s e = dval s' e) /\ (forall e, known s e <-> known s' e) /\ (forall e, live s e <-> live s' e).
  (** The same answer, up to the identity of an element or list the call made. *)
  Definition same_answer s (r r' : dl_res (T := T)) : Prop :=
    r = r' \/ (exists e e', r = DElem (Some e) /\ r' = DElem (Some e') /\ ~ known s e /\ ~ known s e') \/
    (exists l l', r = DList l /\ r' = DList l' /\ ~ dlists s l /\ ~ dlists s l').

  (** Running a list of calls, for the examples; [check]: insist on good handles. *)
  Definition liveb (w : dworld T) (e : nat) : bool :=
    (e <? n_elems w)%nat && negb (existsb (fun l => l_root w l =? e)%nat (seq 0 (n_lists w))) &&
    match e_list w e with
    | Some l => (l <? n_lists w)%nat && existsb (fun x => x =? e)%nat (seq_of w l)
    | None => true
    end.
  Definition call_okb (w : dworld T) (c : dl_call (T := T)) : bool :=
    forallb (fun l => l <? n_lists w)%nat (call_lists c) && forallb (liveb w) (call_elems c).
  Fixpoint dl_run (check : bool) (cs : list (dl_call (T := T))) (w : dworld T)
    : option (list (dl_res (T := T)) * dworld T) :=
    match cs with
    | [] => Some ([], w)
    | c :: cs =>
        if negb check || call_okb w c then
          match dl_exec zero c w with
          | Ok (r, w1) => match dl_run check cs w1 with Some (rs, w2) => Some (r :: rs, w2) | None => None end
          | _ => None
          end
        else None
    end.
End spec.
