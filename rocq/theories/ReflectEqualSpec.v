(** The operator == of the Go specification ("Comparison operators"), as a relation. *)
From Coq Require Import Floats.SpecFloat Strings.String.
From Verif Require Import Base ReflectEqual.

(** Values that belong to a type.  The dynamic type of an interface value is not an interface. *)
Definition is_interface (t : ty) : Prop := match t with TInterface _ => True | _ => False end.
Inductive typed : ty -> gval -> Prop :=
| ty_bool i b : typed (TBool i) (VBool b)
| ty_int i z : typed (TInt i) (VNum z)
| ty_uint i z : typed (TUint i) (VNum z)
| ty_float i f : typed (TFloat i) (VFloat f)
| ty_complex i f g : typed (TComplex i) (VComplex f g)
| ty_string i s : typed (TString i) (VString s)
| ty_chan i a : typed (TChan i) (VRef a)
| ty_pointer i a : typed (TPointer i) (VRef a)
| ty_unsafe i a : typed (TUnsafePointer i) (VRef a)
| ty_func i : typed (TFunc i) VOpaque
| ty_map i : typed (TMap i) VOpaque
| ty_slice i : typed (TSlice i) VOpaque
| ty_nil i : typed (TInterface i) (VIface None)
| ty_dyn i d v : ~ is_interface d -> typed d v -> typed (TInterface i) (VIface (Some (d, v)))
| ty_array i n e vs : length vs = n -> Forall (typed e) vs -> typed (TArray i n e) (VList vs)
| ty_struct i fs vs : Forall2 typed fs vs -> typed (TStruct i fs) (VList vs).

(** Types whose values can be compared; strictly: without a panic ("Type constraints", "Satisfying a
    type constraint": no interface inside either). *)
Inductive comparable (strict : bool) : ty -> Prop :=
| co_bool i : comparable strict (TBool i) | co_int i : comparable strict (TInt i) | co_uint i : comparable strict (TUint i)
| co_float i : comparable strict (TFloat i) | co_complex i : comparable strict (TComplex i) | co_string i : comparable strict (TString i)
| co_chan i : comparable strict (TChan i) | co_pointer i : comparable strict (TPointer i) | co_unsafe i : comparable strict (TUnsafePointer i)
| co_interface i : strict = false -> comparable strict (TInterface i)
| co_array i n e : comparable strict e -> comparable strict (TArray i n e)
| co_struct i fs : Forall (comparable strict) fs -> comparable strict (TStruct i fs).

(** v == u, both of the type t. *)
Inductive same : ty -> gval -> gval -> Prop :=
| sm_bool i b : same (TBool i) (VBool b) (VBool b)
| sm_int i z : same (TInt i) (VNum z) (VNum z)
| sm_uint i z : same (TUint i) (VNum z) (VNum z)
| sm_float i f g : SFeqb f g = true -> same (TFloat i) (VFloat f) (VFloat g)
| sm_complex i f f' g g' : SFeqb f g = true -> SFeqb f' g' = true -> same (TComplex i) (VComplex f f') (VComplex g g')
| sm_string i s : same (TString i) (VString s) (VString s)
| sm_chan i a : same (TChan i) (VRef a) (VRef a)
| sm_pointer i a : same (TPointer i) (VRef a) (VRef a)
| sm_unsafe i a : same (TUnsafePointer i) (VRef a) (VRef a)
| sm_nil i : same (TInterface i) (VIface None) (VIface None)
| sm_dyn i d v u : same d v u -> same (TInterface i) (VIface (Some (d, v))) (VIface (Some (d, u)))
| sm_array i n e vs us : comparable false e -> Forall2 (same e) vs us -> same (TArray i n e) (VList vs) (VList us)
| sm_struct i fs vs us : Forall3 same fs vs us -> same (TStruct i fs) (VList vs) (VList us).

(** The value x of type d is v or a part of it. *)
Inductive part : ty -> gval -> ty -> gval -> Prop :=
| pt_self t v : part t v t v
| pt_dyn i d v d' x : part d v d' x -> part (TInterface i) (VIface (Some (d, v))) d' x
| pt_array i n e vs v d x : v ∈ vs -> part e v d x -> part (TArray i n e) (VList vs) d x
| pt_struct i fs vs k f v d x : fs !! k = Some f -> vs !! k = Some v -> part f v d x -> part (TStruct i fs) (VList vs) d x.
