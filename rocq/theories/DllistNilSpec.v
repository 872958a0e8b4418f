(** What calls on a nil list do. *)
From Verif Require Import Base DllistModel DllistSpec DllistNilModel.
Local Open Scope Z_scope.

Section spec.
  Context {T : Type}.
  Notation world := (dworld T).
  Notation ptr := (option nat).

  (** The element a pointer leads to says that it is in a list. *)
  Definition held (w : world) (p : ptr) : bool :=
    match p with Some e => match e_list w e with Some _ => true | None => false end | None => false end.
  (** The pointers and lists in a call. *)
  Definition n_elems_of (c : n_call T) : list nat :=
    omap id match c with
    | NRemove e | NMoveToFront e | NMoveToBack e => [e]
    | NInsertBefore _ m | NInsertAfter _ m | NPushBackListTo _ m | NPushFrontListTo _ m => [m]
    | NMoveBefore e m | NMoveAfter e m | NSwap e m => [e; m]
    | _ => []
    end.
  Definition n_lists_of (c : n_call T) : list nat :=
    omap id match c with
    | NPushBackList o | NPushFrontList o | NPushBackListTo o _ | NPushFrontListTo o _ => [o]
    | _ => []
    end.
  (** Elements a program can hold pointers to.  One that is in no list is as Remove leaves it (C192) or as
      the zero value: it points nowhere. *)
  Definition n_ok (w : world) (c : n_call T) : Prop :=
    (forall e, e ∈ n_elems_of c -> (e < n_elems w)%nat /\ ~ is_root w e /\
       (e_list w e = None -> e_next w e = None /\ e_prev w e = None)) /\
    (forall l, l ∈ n_lists_of c -> (l < n_lists w)%nat).

  (** What is returned; [None] is a panic. *)
  Definition n_answer (w : world) (c : n_call T) : option (n_ret T) :=
    match c with
    | NGet i => if i <? 0 then Some (NElem None) else None
    | NRemove (Some e) => if held w (Some e) then Some (NVal (e_val w e)) else None
    | NInsertBefore _ m | NInsertAfter _ m => if held w m then Some (NElem None) else None
    | NMoveToFront e | NMoveToBack e => if held w e then Some NUnit else None
    | NMoveBefore (Some e) m | NMoveAfter (Some e) m | NSwap (Some e) m =>
        if held w (Some e) || held w m || bool_decide (m = Some e) then Some NUnit else None
    | NPushBackListTo o (Some m) | NPushFrontListTo o (Some m) =>
        if held w (Some m) then Some NUnit
        else match o with Some l => if bool_decide (dseq (dabs w) l = []) then Some NUnit else None | None => None end
    | _ => None
    end.

  (** Nothing is changed but the next pointers of elements that are in no list. *)
  Record untouched (w w' : world) : Prop := {
    u_root : forall l, l_root w' l = l_root w l;
    u_len : forall l, l_len w' l = l_len w l;
    u_init : forall l, l_init w' l = l_init w l;
    u_nl : n_lists w' = n_lists w;
    u_ne : (n_elems w <= n_elems w')%nat;
    u_val : forall e, (e < n_elems w)%nat -> e_val w' e = e_val w e;
    u_list : forall e, (e < n_elems w)%nat -> e_list w' e = e_list w e;
    u_prev : forall e, (e < n_elems w)%nat -> e_prev w' e = e_prev w e;
    u_next : forall e, (e < n_elems w)%nat -> e_list w e <> None \/ is_root w e -> e_next w' e = e_next w e }.

  (** A function of DllistNilModel.v that does what one of DllistModel.v does. *)
  Definition agree {A} (m : M world A) (n : N (T := T) A) : Prop := forall w,
    match m w with Ok (a, w1) => n w = (Some a, w1) | Panic => (n w).1 = None | NoFuel => False end.

  (** Calls with good handles on lists that are there, and between them calls on nil whose panics, if any,
      are recovered.  The trace has the former. *)
  Inductive mixed (zero : T) : world -> list (dl_call (T := T) * dl_res (T := T)) -> world -> Prop :=
  | mx_nil w : mixed zero w [] w
  | mx_call w c r w1 tr w2 :
      call_ok (dabs w) c -> dl_exec zero c w = Ok (r, w1) -> mixed zero w1 tr w2 -> mixed zero w ((c, r) :: tr) w2
  | mx_none w c o w1 tr w2 :
      n_ok w c -> n_exec None c w = (o, w1) -> mixed zero w1 tr w2 -> mixed zero w tr w2.
  (** As [dl_behaves], with steps between that change no list and no value. *)
  Inductive behaves_mixed : dstate T -> list (dl_call (T := T) * dl_res (T := T)) -> dstate T -> Prop :=
  | bm_nil s : behaves_mixed s [] s
  | bm_call s c r s1 tr s2 :
      call_ok s c -> dl_does s s1 c r -> seqs_ok s1 -> behaves_mixed s1 tr s2 -> behaves_mixed s ((c, r) :: tr) s2
  | bm_none s s1 tr s2 : d_same s s1 -> behaves_mixed s1 tr s2 -> behaves_mixed s tr s2.
End spec.
