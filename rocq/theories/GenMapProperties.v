(** Property theorems for genmap (C32-C36). *)
From Verif Require Import Base GoMap GoMapSpec GoMapProofs GenMapModel GenMapSpec GenMapProofs.

(** C32: every history behaves as a family of finite maps, whatever the iteration orders. *)
Theorem C32_genmap_history :
  forall (K V : Type) (eqb : K -> K -> bool) (upd : bool)
    (ord : nat -> list (K * V) -> list (K * V)) (zero : V) h w',
  equivb eqb -> (forall n l, ord n l ≡ₚ l) ->
  gm_history eqb upd ord zero w_empty h w' ->
  exists s0 s, alloc s0 = 0 /\ (forall r k, tab s0 r k = None) /\ gm_behaves eqb zero s0 h s.
Proof. intros K V eqb upd ord zero h w' E ordP. exact (gm_history_empty eqb upd E ord ordP zero h w'). Qed.
Print Assumptions C32_genmap_history.

(** C33 refuted: on a miss the zero value comes back although the map now holds v. *)
Theorem C33_genmap_LoadOrStore_refuted :
  exists (h : list (gm_call nat nat * gm_res nat nat)) w,
    gm_history Nat.eqb false (fun _ l => l) 0 w_empty h w /\
    h = [ (GNew, GRef (Some 0)); (GLoadOrStore (Some 0) 7 42, GVal 0 false);
          (GLoad (Some 0) 7, GVal 42 true) ].
Proof. exact gm_LoadOrStore_refuted. Qed.
Print Assumptions C33_genmap_LoadOrStore_refuted.

(** C33: what happens on every miss. *)
Theorem C33_genmap_LoadOrStore_miss_returns_zero :
  forall (K V : Type) (eqb : K -> K -> bool) (upd : bool) (zero : V) n k v w,
  equivb eqb -> wf eqb w -> n < next w -> tab (gabs eqb w) (Some n) k = None ->
  exists w', gm_LoadOrStore eqb upd zero (Some n) k v w = Ok ((zero, false), w') /\
    tab (gabs eqb w') (Some n) k = Some v.
Proof. intros K V eqb upd zero n k v w E. exact (gm_LoadOrStore_wrong eqb upd E zero n k v w). Qed.
Print Assumptions C33_genmap_LoadOrStore_miss_returns_zero.

(** C34: [newFunc] is any computation over the maps. On a hit nothing runs and nothing
    changes; on a miss it runs exactly once, from the present state, and what it returned is
    returned and stored. If it panics so does the call. *)
Theorem C34_genmap_LoadOrStoreFunc_hit :
  forall (K V : Type) (eqb : K -> K -> bool) (upd : bool) (zero : V) m k newFunc w x,
  tab (gabs eqb w) m k = Some x ->
  gm_LoadOrStoreFunc eqb upd zero m k newFunc w = Ok ((x, true), w).
Proof. intros K V eqb upd zero. exact (gm_LoadOrStoreFunc_hit eqb upd zero). Qed.
Print Assumptions C34_genmap_LoadOrStoreFunc_hit.
Theorem C34_genmap_LoadOrStoreFunc_miss :
  forall (K V : Type) (eqb : K -> K -> bool) (upd : bool) (zero : V) n k newFunc w v w1,
  equivb eqb -> tab (gabs eqb w) (Some n) k = None -> newFunc w = Ok (v, w1) ->
  exists w2, gm_LoadOrStoreFunc eqb upd zero (Some n) k newFunc w = Ok ((v, false), w2) /\
    becomes (gabs eqb w1) (gabs eqb w2) n (fupd eqb (tab (gabs eqb w1) (Some n)) k (Some v)).
Proof. intros K V eqb upd zero n k nf w v w1 E. exact (gm_LoadOrStoreFunc_miss eqb upd E zero n k nf w v w1). Qed.
Print Assumptions C34_genmap_LoadOrStoreFunc_miss.
Theorem C34_genmap_LoadOrStoreFunc_panic :
  forall (K V : Type) (eqb : K -> K -> bool) (upd : bool) (zero : V) m k newFunc w,
  tab (gabs eqb w) m k = None -> newFunc w = Panic ->
  gm_LoadOrStoreFunc eqb upd zero m k newFunc w = Panic.
Proof. intros K V eqb upd zero. exact (gm_LoadOrStoreFunc_fail eqb upd zero). Qed.
Print Assumptions C34_genmap_LoadOrStoreFunc_panic.

(** C35: a clone is a new map with the same content; Map and From return the same map; and
    (next theorem) a map that later calls do not mention keeps its content, so neither the
    clone nor the original is affected by calls on the other. *)
Theorem C35_genmap_Clone_Map_From :
  forall (K V : Type) (eqb : K -> K -> bool) (upd : bool)
    (ord : nat -> list (K * V) -> list (K * V)) (zero : V) w m r w',
  equivb eqb -> (forall n l, ord n l ≡ₚ l) -> wf eqb w -> (forall n, m = Some n -> n < next w) ->
  (gm_step eqb upd ord zero (GClone m) w = (r, w') ->
     exists n, r = GRef (Some n) /\ Some n <> m /\
       created (gabs eqb w) (gabs eqb w') n (tab (gabs eqb w) m)) /\
  (gm_step eqb upd ord zero (GMap m) w = (r, w') -> r = GRef m /\ w' = w) /\
  (gm_step eqb upd ord zero (GFrom m) w = (r, w') -> r = GRef m /\ w' = w).
Proof. intros K V eqb upd ord zero w m r w' E ordP. exact (gm_alias eqb upd E ord ordP zero w m r w'). Qed.
Print Assumptions C35_genmap_Clone_Map_From.
Theorem C35_genmap_unmentioned_map_unchanged :
  forall (K V : Type) (eqb : K -> K -> bool) (upd : bool)
    (ord : nat -> list (K * V) -> list (K * V)) (zero : V) w h w' n,
  equivb eqb -> (forall n l, ord n l ≡ₚ l) -> wf eqb w ->
  gm_history eqb upd ord zero w h w' ->
  n < next w -> (forall c r, (c, r) ∈ h -> Some n ∉ gm_refs c) ->
  forall k, tab (gabs eqb w') (Some n) k = tab (gabs eqb w) (Some n) k.
Proof.
  intros K V eqb upd ord zero w h w' n E ordP. exact (gm_history_frame eqb upd E ord ordP zero w h w' n).
Qed.
Print Assumptions C35_genmap_unmentioned_map_unchanged.

(** C36: Range with any callback over any captured state calls it on a listing of the
    entries in some order, up to the first false. *)
Theorem C36_genmap_Range :
  forall (K V : Type) (eqb : K -> K -> bool) (ord : nat -> list (K * V) -> list (K * V))
    (f : K -> V -> bool) m w,
  equivb eqb -> (forall n l, ord n l ≡ₚ l) -> wf eqb w ->
  exists l w', gm_Range ord m (fun k v seen => ret (f k v, seen ++ [(k, v)])) [] w
    = Ok ((forallb (fun e => f e.1 e.2) l, visited (fun e => f e.1 e.2) l), w') /\
    lists_entries eqb (tab (gabs eqb w) m) l /\ unchanged (gabs eqb w) (gabs eqb w').
Proof. intros K V eqb ord f m w E ordP. exact (gm_Range_spec eqb E ord ordP f m w). Qed.
Print Assumptions C36_genmap_Range.
Theorem C36_genmap_Keys_Values :
  forall (K V : Type) (eqb : K -> K -> bool) (ord : nat -> list (K * V) -> list (K * V)) m w,
  equivb eqb -> (forall n l, ord n l ≡ₚ l) -> wf eqb w ->
  (exists l w', gm_Keys ord m w = Ok (l, w') /\
     lists_members eqb (fun k => tab (gabs eqb w) m k <> None) l) /\
  (exists l w', gm_Values ord m w = Ok (map snd l, w') /\ lists_entries eqb (tab (gabs eqb w) m) l).
Proof. intros K V eqb ord m w E ordP. exact (gm_Keys_Values_spec eqb E ord ordP m w). Qed.
Print Assumptions C36_genmap_Keys_Values.

(** A concrete history: two maps, a clone that is changed, a nil map, reversed iteration. *)
Example ex_genmap_history :
  exists w, gm_history Nat.eqb true (fun _ l => reverse l) 0 w_empty
    [ (GNew, GRef (Some 0)); (GStore (Some 0) 1 10, GRef (Some 0)); (GStore (Some 0) 2 20, GRef (Some 0));
      (GClone (Some 0), GRef (Some 1)); (GDelete (Some 1) 1, GRef (Some 1));
      (GLoad (Some 0) 1, GVal 10 true); (GLoad (Some 1) 1, GVal 0 false);
      (GKeys (Some 0), GKs [2; 1]); (GLen (Some 1), GInt 1);
      (GRange (Some 0) (fun k v => Nat.eqb k 1), GSeen [(2, 20)] false);
      (GStore None 3 4, GPanic); (GEqualFunc (Some 0) (Some 1) Nat.eqb, GBool false);
      (GDeleteFunc (Some 0) (fun k v => Nat.eqb v 20), GUnit); (GLen (Some 0), GInt 1) ] w
    /\ equivb Nat.eqb /\ (forall (n : nat) (l : list (nat * nat)), reverse l ≡ₚ l).
Proof.
  eexists. split; [|split].
  - apply (gm_run_history Nat.eqb true (fun _ l => reverse l) 0
      [ GNew; GStore (Some 0) 1 10; GStore (Some 0) 2 20; GClone (Some 0); GDelete (Some 1) 1;
        GLoad (Some 0) 1; GLoad (Some 1) 1; GKeys (Some 0); GLen (Some 1);
        GRange (Some 0) (fun k v => Nat.eqb k 1); GStore None 3 4;
        GEqualFunc (Some 0) (Some 1) Nat.eqb; GDeleteFunc (Some 0) (fun k v => Nat.eqb v 20);
        GLen (Some 0) ]).
    vm_compute. reflexivity.
  - repeat split; intros; rewrite ?Nat.eqb_eq in *; congruence.
  - intros _ l. apply reverse_Permutation.
Qed.
