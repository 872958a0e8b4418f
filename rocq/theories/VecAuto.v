(** Model of the comparators that a vector picks for itself by reflection (/repo/vec/vec.go:37-98).

    - A type is given by its kind; [KInt], [KUint], [KFloat] stand for the kinds of all sizes listed in
      the switches (lines 46, 50, 54, 79, 83, 87), [KOther] for all kinds not listed there (bool,
      uintptr, complex, array, chan, func, interface, map, slice, struct).
    - Integers are unbounded; floats are IEEE-754 ([spec_float]); a float32 is converted to float64
      by reflection, which changes no comparison.
    - The methods of reflect.Value follow their documentation: Int, Uint and Float panic on values of
      other kinds; String does not, it returns "<T Value>" where T is the name of the type.
    - [natural] is natural.Less of github.com/maruel/natural, an arbitrary function here. *)
From Coq Require Import Floats.SpecFloat Strings.String.
From Verif Require Import Base VecModel.
Local Open Scope Z_scope.

Inductive kind := KInt | KUint | KFloat | KString | KPtr (elem : kind) | KOther.

Section auto.
  (** Values of the other kinds; names of the types. *)
  Context (Other : Type) (name : kind -> string) (natural : string -> string -> bool).

  (** A pointer is nil or an address. *)
  Definition val (k : kind) : Type :=
    match k with
    | KInt => Z | KUint => Z | KFloat => spec_float | KString => string | KPtr _ => option nat | KOther => Other
    end.

  (** reflect.ValueOf(x).Int(), .Uint(), .Float(), .String() *)
  Definition v_Int {k} : val k -> res Z := match k with KInt => fun x => Ok x | _ => fun _ => Panic end.
  Definition v_Uint {k} : val k -> res Z := match k with KUint => fun x => Ok x | _ => fun _ => Panic end.
  Definition v_Float {k} : val k -> res spec_float := match k with KFloat => fun x => Ok x | _ => fun _ => Panic end.
  Definition v_String {k} : val k -> string :=
    match k with KString => fun x => x | k => fun _ => ("<" ++ name k ++ " Value>")%string end.

  (** Lines 41-44 and 74-77. *)
  Definition looked_at (k : kind) : kind := match k with KPtr e => e | k => k end.

  (** autoDetectSetCmpLess on a vector without a comparator, lines 37-67: the function it stores. *)
  Definition detect_less (k : kind) : res (val k -> val k -> res bool) :=
    match looked_at k with
    | KInt => Ok (fun a b => x <-! v_Int a ;; y <-! v_Int b ;; Ok (x <? y))
    | KUint => Ok (fun a b => x <-! v_Uint a ;; y <-! v_Uint b ;; Ok (x <? y))
    | KFloat => Ok (fun a b => x <-! v_Float a ;; y <-! v_Float b ;; Ok (SFltb x y))
    | KString => Ok (fun a b => Ok (natural (v_String a) (v_String b)))
    | _ => Panic
    end.
  (** autoDetectSetCmpEqual, lines 69-98. *)
  Definition detect_equal (k : kind) : res (val k -> val k -> res bool) :=
    match looked_at k with
    | KInt => Ok (fun a b => x <-! v_Int a ;; y <-! v_Int b ;; Ok (x =? y))
    | KUint => Ok (fun a b => x <-! v_Uint a ;; y <-! v_Uint b ;; Ok (x =? y))
    | KFloat => Ok (fun a b => x <-! v_Float a ;; y <-! v_Float b ;; Ok (SFeqb x y))
    | KString => Ok (fun a b => Ok (String.eqb (v_String a) (v_String b)))
    | _ => Panic
    end.

  (** The same as the parameters of VecModel: a function, or None if picking it or calling it panics. *)
  Definition auto_less (k : kind) : option (val k -> val k -> bool) :=
    match k with
    | KInt | KUint => Some Z.ltb
    | KFloat => Some SFltb
    | KString => Some natural
    | KPtr KString => Some (fun _ _ => natural (v_String (k := KPtr KString) None) (v_String (k := KPtr KString) None))
    | KPtr _ | KOther => None
    end.
  Definition auto_equal (k : kind) : option (val k -> val k -> bool) :=
    match k with
    | KInt | KUint => Some Z.eqb
    | KFloat => Some SFeqb
    | KString => Some String.eqb
    | KPtr KString => Some (fun _ _ => true)
    | KPtr _ | KOther => None
    end.
End auto.
