(** Specification of genmap: what each call does to a family of abstract maps. *)
From Verif Require Import Base GoMap GoMapSpec GenMapModel.

(** [alloc] maps exist, named 0, 1, ...; [tab r] is the content of the map value [r]. *)
Record gstate (K V : Type) := GState { alloc : nat; tab : ref -> K -> option V }.
Arguments GState {K V}. Arguments alloc {K V}. Arguments tab {K V}.

(** No map changes. *)
Definition unchanged {K V} (s s' : gstate K V) : Prop :=
  alloc s' = alloc s /\ forall r k, tab s' r k = tab s r k.
(** Exactly the map [n] changes, and becomes [m]. *)
Definition becomes {K V} (s s' : gstate K V) (n : nat) (m : K -> option V) : Prop :=
  alloc s' = alloc s /\
  (forall k, tab s' (Some n) k = m k) /\ (forall r k, r <> Some n -> tab s' r k = tab s r k).
(** A new map named [n] with content [m] appears; no other map changes. *)
Definition created {K V} (s s' : gstate K V) (n : nat) (m : K -> option V) : Prop :=
  n = alloc s /\ alloc s' = S (alloc s) /\
  (forall k, tab s' (Some n) k = m k) /\ (forall r k, r <> Some n -> tab s' r k = tab s r k).

Section spec.
  Context {K V : Type} (eqb : K -> K -> bool) (zero : V).
  Implicit Types (s : gstate K V) (m : ref).

  (** v, ok := m[k] *)
  Definition val_ok (o : option V) : gm_res K V :=
    match o with Some v => GVal v true | None => GVal zero false end.
  Definition is_empty (f : K -> option V) : Prop := forall k, f k = None.

  Inductive gm_does s s' : gm_call K V -> gm_res K V -> Prop :=
  | d_New n : created s s' n (fun _ => None) -> gm_does s s' GNew (GRef (Some n))
  | d_From m : unchanged s s' -> gm_does s s' (GFrom m) (GRef m)
  | d_Map m : unchanged s s' -> gm_does s s' (GMap m) (GRef m)
  | d_Len m l : unchanged s s' -> lists_entries eqb (tab s m) l ->
      gm_does s s' (GLen m) (GInt (length l))
  | d_Load m k : unchanged s s' -> gm_does s s' (GLoad m k) (val_ok (tab s m k))
  | d_Store n k v : becomes s s' n (fupd eqb (tab s (Some n)) k (Some v)) ->
      gm_does s s' (GStore (Some n) k v) (GRef (Some n))
  | d_Store_nil k v : unchanged s s' -> gm_does s s' (GStore None k v) GPanic
  | d_Delete n k : becomes s s' n (fupd eqb (tab s (Some n)) k None) ->
      gm_does s s' (GDelete (Some n) k) (GRef (Some n))
  | d_Delete_nil k : unchanged s s' -> gm_does s s' (GDelete None k) (GRef None)
  | d_Clone m n : created s s' n (tab s m) -> gm_does s s' (GClone m) (GRef (Some n))
  | d_Keys m l : unchanged s s' -> lists_members eqb (fun k => tab s m k <> None) l ->
      gm_does s s' (GKeys m) (GKs l)
  | d_Values m l : unchanged s s' -> lists_entries eqb (tab s m) l ->
      gm_does s s' (GValues m) (GVs (map snd l))
  | d_Range m f l : unchanged s s' -> lists_entries eqb (tab s m) l ->
      gm_does s s' (GRange m f)
        (GSeen (visited (fun e => f e.1 e.2) l) (forallb (fun e => f e.1 e.2) l))
  | d_LoadOrStore_hit m k v x : unchanged s s' -> tab s m k = Some x ->
      gm_does s s' (GLoadOrStore m k v) (GVal x true)
  | d_LoadOrStore_miss n k v : tab s (Some n) k = None ->
      becomes s s' n (fupd eqb (tab s (Some n)) k (Some v)) ->
      (* what the code does: the zero value, not v *)
      gm_does s s' (GLoadOrStore (Some n) k v) (GVal zero false)
  | d_LoadOrStore_nil k v : unchanged s s' -> gm_does s s' (GLoadOrStore None k v) GPanic
  | d_LoadOrStoreFunc_hit m k v x : unchanged s s' -> tab s m k = Some x ->
      gm_does s s' (GLoadOrStoreFunc m k v) (GVal x true)
  | d_LoadOrStoreFunc_miss n k v : tab s (Some n) k = None ->
      becomes s s' n (fupd eqb (tab s (Some n)) k (Some v)) ->
      gm_does s s' (GLoadOrStoreFunc (Some n) k v) (GVal v false)
  | d_LoadOrStoreFunc_nil k v : unchanged s s' -> gm_does s s' (GLoadOrStoreFunc None k v) GPanic
  | d_LoadAndDelete n k : becomes s s' n (fupd eqb (tab s (Some n)) k None) ->
      gm_does s s' (GLoadAndDelete (Some n) k) (val_ok (tab s (Some n) k))
  | d_LoadAndDelete_nil k : unchanged s s' -> gm_does s s' (GLoadAndDelete None k) (GVal zero false)
  | d_LoadAndStore n k v : becomes s s' n (fupd eqb (tab s (Some n)) k (Some v)) ->
      gm_does s s' (GLoadAndStore (Some n) k v) (val_ok (tab s (Some n) k))
  | d_LoadAndStore_nil k v : unchanged s s' -> gm_does s s' (GLoadAndStore None k v) GPanic
  | d_EqualFunc m m2 eq b : unchanged s s' ->
      (b = true <-> forall k, match tab s m k, tab s m2 k with
                              | Some x, Some y => eq x y = true
                              | None, None => True
                              | _, _ => False
                              end) ->
      gm_does s s' (GEqualFunc m m2 eq) (GBool b)
  | d_Clear n : becomes s s' n (fun _ => None) -> gm_does s s' (GClear (Some n)) (GRef (Some n))
  | d_Clear_nil : unchanged s s' -> gm_does s s' (GClear None) (GRef None)
  | d_CopyTo m n : becomes s s' n (over (tab s (Some n)) (tab s m)) ->
      gm_does s s' (GCopyTo m (Some n)) (GRef m)
  | d_CopyTo_nil m : unchanged s s' -> is_empty (tab s m) -> gm_does s s' (GCopyTo m None) (GRef m)
  | d_CopyTo_panic m : unchanged s s' -> ~ is_empty (tab s m) -> gm_does s s' (GCopyTo m None) GPanic
  | d_CopyFrom n m : becomes s s' n (over (tab s (Some n)) (tab s m)) ->
      gm_does s s' (GCopyFrom (Some n) m) (GRef (Some n))
  | d_CopyFrom_nil m : unchanged s s' -> is_empty (tab s m) -> gm_does s s' (GCopyFrom None m) (GRef None)
  | d_CopyFrom_panic m : unchanged s s' -> ~ is_empty (tab s m) -> gm_does s s' (GCopyFrom None m) GPanic
  | d_DeleteFunc n (f : K -> V -> bool) (keep : K -> option V) :
      (* an entry goes exactly when [f] of the stored key and value says so; [stored k] is the
         stored key, which is [==] to k *)
      (exists stored : K -> K, (forall k : K, tab s (Some n) k <> None -> eqb (stored k) k = true) /\
         forall k : K, keep k = match tab s (Some n) k with
                            | Some v => if f (stored k) v then None else Some v
                            | None => None
                            end) ->
      becomes s s' n keep ->
      gm_does s s' (GDeleteFunc (Some n) f) GUnit
  | d_DeleteFunc_nil f : unchanged s s' -> gm_does s s' (GDeleteFunc None f) GUnit.

  Inductive gm_behaves s : list (gm_call K V * gm_res K V) -> gstate K V -> Prop :=
  | gb_nil s' : unchanged s s' -> gm_behaves s [] s'
  | gb_cons s1 c r h s2 : gm_does s s1 c r -> gm_behaves s1 h s2 -> gm_behaves s ((c, r) :: h) s2.
End spec.

(** No maps at all. *)
Definition g_empty {K V} : gstate K V := GState 0 (fun _ _ => None).
