(** Model of reflect.Value.Equal (Go 1.22, src/reflect/value.go), with which rwmap compares values in
    CompareAndSwap and CompareAndDelete (/repo/rwmap/rwmap.go:170, 183, 453) and synccache in
    CompareValueAndDelete (/repo/synccache/synccache.go:140).  RwMapModel.v and SyncCacheModel.v have an
    arbitrary function in its place, with [None] for a panic.

    - A type is its kind, the types it is made of, and a number that tells the types of a kind apart
      (int8 and int16, named types); no two types of the model are the same type.
    - Integers are unbounded, floats IEEE-754; pointers, channels and unsafe pointers are nil or an
      address; functions, maps and slices have no content here, since Equal does not look at it.
    - Unexported fields need no special treatment: Equal may look at them. *)
From Coq Require Import Floats.SpecFloat Strings.String.
From Verif Require Import Base.

Inductive ty :=
| TBool (id : nat) | TInt (id : nat) | TUint (id : nat) | TFloat (id : nat) | TComplex (id : nat) | TString (id : nat)
| TChan (id : nat) | TPointer (id : nat) | TUnsafePointer (id : nat)
| TFunc (id : nat) | TMap (id : nat) | TSlice (id : nat)
| TInterface (id : nat)
| TArray (id n : nat) (e : ty)
| TStruct (id : nat) (fs : list ty).

(** Values; an array has its elements, a struct its fields. *)
Inductive gval :=
| VBool (b : bool) | VNum (z : Z) | VFloat (f : spec_float) | VComplex (re im : spec_float) | VString (s : string)
| VRef (a : option nat) | VOpaque
| VIface (dyn : option (ty * gval))
| VList (vs : list gval).

(** Type identity. *)
Fixpoint ty_eqb (t u : ty) {struct t} : bool :=
  match t, u with
  | TBool i, TBool j | TInt i, TInt j | TUint i, TUint j | TFloat i, TFloat j | TComplex i, TComplex j
  | TString i, TString j | TChan i, TChan j | TPointer i, TPointer j | TUnsafePointer i, TUnsafePointer j
  | TFunc i, TFunc j | TMap i, TMap j | TSlice i, TSlice j | TInterface i, TInterface j => Nat.eqb i j
  | TArray i n e, TArray j m f => Nat.eqb i j && Nat.eqb n m && ty_eqb e f
  | TStruct i fs, TStruct j gs =>
      Nat.eqb i j && (fix go (fs gs : list ty) {struct fs} : bool :=
        match fs, gs with [] , [] => true | f :: fs, g :: gs => ty_eqb f g && go fs gs | _, _ => false end) fs gs
  | _, _ => false
  end.

(** Type.Comparable *)
Fixpoint Comparable (t : ty) : bool :=
  match t with
  | TFunc _ | TMap _ | TSlice _ => false
  | TArray _ _ e => Comparable e
  | TStruct _ fs => forallb Comparable fs
  | _ => true
  end.

(** The value inside an interface value; None for the invalid value that reflect has for nil. *)
Definition elem (t : ty) (v : gval) : option (ty * gval) :=
  match t, v with
  | TInterface _, VIface d => d
  | TInterface _, _ => None
  | _, _ => Some (t, v)
  end.

(** Value.Equal of a value of type [t] with one of type [t']. *)
Fixpoint Equal (v : gval) (t : ty) (u : gval) (t' : ty) {struct v} : option bool :=
  (* the rest, where both have the type t *)
  let same_type (u : gval) : option bool :=
    match t, v, u with
    | TBool _, VBool a, VBool b => Some (Bool.eqb a b)
    | (TInt _ | TUint _), VNum a, VNum b => Some (Z.eqb a b)
    | TFloat _, VFloat a, VFloat b => Some (SFeqb a b)
    | TComplex _, VComplex a a', VComplex b b' => Some (SFeqb a b && SFeqb a' b')
    | TString _, VString a, VString b => Some (String.eqb a b)
    | (TChan _ | TPointer _ | TUnsafePointer _), VRef a, VRef b => Some (bool_decide (a = b))
    | TArray _ n e, VList vs, VList us =>
        if Nat.eqb n 0 then if Comparable e then Some true else None
        else (fix go (vs us : list gval) {struct vs} : option bool :=
          match vs, us with
          | v :: vs, u :: us => match Equal v e u e with Some true => go vs us | r => r end
          | _, _ => Some true
          end) vs us
    | TStruct _ fs, VList vs, VList us =>
        (fix go (vs us : list gval) (fs : list ty) {struct vs} : option bool :=
          match vs, us, fs with
          | v :: vs, u :: us, f :: fs => match Equal v f u f with Some true => go vs us fs | r => r end
          | _, _, _ => Some true
          end) vs us fs
    | _, _, _ => None
    end in
  match t, v with
  | TInterface _, VIface (Some (d, v)) => Equal v d u t'
  | TInterface _, _ => Some (match elem t' u with None => true | Some _ => false end)
  | _, _ =>
      match elem t' u with
      | None => Some false
      | Some (d, u) => if ty_eqb t d then same_type u else Some false
      end
  end.

(** reflect.ValueOf(v).Equal(reflect.ValueOf(u)) for v and u of the type t.  ValueOf takes an interface,
    so that of an interface value it sees what is inside, as Equal does. *)
Definition equal_values (t : ty) (v u : gval) : option bool := Equal v t u t.
