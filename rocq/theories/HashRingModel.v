(** Model of /repo/hashring/hashring.go on top of the models of set and vec.

    - A ring is the pair of worlds of its own: its sets and its vector are private (they are never
      handed out), so rings share nothing.
    - The hash function (hashKey, lines 85-87) is a parameter, any function of node and index; the one
      the code uses on strings is [hashKey_string] below.
    - [eqb] is the node type's [==], [ord] the iteration order of maps, [srt] what slices.SortFunc
      does, [growth] the growth of slices: all arbitrary here. *)
From Coq Require Import String Ascii.
From Verif Require Import Base GoMap SetModel VecModel.
From stdpp Require Import pretty.
Local Open Scope Z_scope.

Section ring.
  Context {N : Type} (zero : N) (eqb : N -> N -> bool) (hash : N -> Z -> Z).
  Context (upd : bool) (ord : nat -> list (N * unit) -> list (N * unit)).
  Context (growth : nat -> nat -> nat -> nat) (srt : (N * Z -> N * Z -> Z) -> list (N * Z) -> list (N * Z)).

  (** node, lines 18-21: (Node, hash) *)
  Notation vnode := (N * Z)%type.
  Definition hworld : Type := world N unit * vworld vnode.
  (** HashRing, lines 12-16 *)
  Record ring := mk_ring { r_replicas : Z; r_raw : ref; r_nodes : nat }.

  Definition on_sets {A} (m : M (world N unit) A) : M hworld A := fun w =>
    match m (fst w) with Ok (a, s) => Ok (a, (s, snd w)) | Panic => Panic | NoFuel => NoFuel end.
  Definition on_vec {A} (m : M (vworld vnode) A) : M hworld A := fun w =>
    match m (snd w) with Ok (a, v) => Ok (a, (fst w, v)) | Panic => Panic | NoFuel => NoFuel end.

  (** The comparators of lines 28-33 *)
  Definition hash_less (t1 t2 : vnode) : bool := snd t1 <? snd t2.
  Definition hash_equal (t1 t2 : vnode) : bool := snd t1 =? snd t2.

  (** New, lines 23-36 *)
  Definition h_New (replicas : Z) : M hworld ring :=
    s <- on_sets set_New ;;
    v <- on_vec (VecModel.New (Some (CUser hash_less)) (Some (CUser hash_equal))) ;;
    ret (mk_ring replicas s v).

  (** The inner loop of AddNodes, lines 44-49; [k] iterations are left. *)
  Fixpoint push_replicas (hr : ring) (val : N) (v : Z) (k : nat) : M hworld unit :=
    match k with
    | O => ret tt
    | S k => on_vec (VecModel.Push (zero, 0) growth (r_nodes hr) [(val, hash val v)]) ;;; push_replicas hr val (v + 1) k
    end.
  (** The loop of set.Range (set.go:85-91) with the callback of lines 43-51, which always continues. *)
  Fixpoint push_nodes (hr : ring) (vals : list N) : M hworld unit :=
    match vals with
    | [] => ret tt
    | val :: vals => push_replicas hr val 0 (Z.to_nat (r_replicas hr)) ;;; push_nodes hr vals
    end.
  (** AddNodes, lines 38-55 *)
  Definition h_AddNodes (hr : ring) (nodes : list N) : M hworld unit :=
    if Nat.eqb (length nodes) 0 then ret tt else
    a <- on_sets set_New ;;
    a <- on_sets (set_Push eqb upd a nodes) ;;
    s <- on_sets (set_Difference eqb upd ord a (r_raw hr)) ;;
    es <- on_sets (go_range ord s) ;;
    push_nodes hr (map fst es) ;;;
    sl <- on_sets (set_Slice ord s) ;;
    on_sets (set_Push eqb upd (r_raw hr) sl) ;;;
    on_vec (VecModel.Sort None None srt (r_nodes hr)).
  (** ResetNodes, lines 57-61 *)
  Definition h_ResetNodes (hr : ring) (nodes : list N) : M hworld unit :=
    on_vec (VecModel.Clear (r_nodes hr)) ;;;
    on_sets (set_Clear (r_raw hr)) ;;;
    h_AddNodes hr nodes.
  (** GetNode, lines 64-83 *)
  Definition h_GetNode (hr : ring) (key : N) : M hworld N :=
    n <- on_vec (VecModel.Len (r_nodes hr)) ;;
    if n =? 0 then ret zero else
    r <- on_vec (VecModel.BinarySearch None None (r_nodes hr) (key, hash key 0)) ;;
    if snd r : bool then ret key else
    n <- on_vec (VecModel.Len (r_nodes hr)) ;;
    if fst r =? n then
      e <- on_vec (VecModel.First (zero, 0) (r_nodes hr)) ;; ret (fst (fst e))
    else
      e <- on_vec (VecModel.Get (zero, 0) (r_nodes hr) (fst r)) ;; ret (fst (fst e)).
  (** RemoveNodes, lines 89-95 *)
  Definition h_RemoveNodes (hr : ring) (nodes : list N) : M hworld unit :=
    if Nat.eqb (length nodes) 0 then ret tt else
    a <- on_sets set_New ;;
    a <- on_sets (set_Push eqb upd a nodes) ;;
    s <- on_sets (set_Intersection eqb upd ord (r_raw hr) a) ;;
    d <- on_sets (set_Difference eqb upd ord (r_raw hr) s) ;;
    sl <- on_sets (set_Slice ord d) ;;
    h_ResetNodes hr sl.

  (** A call of the API. *)
  Inductive h_call := HAdd (l : list N) | HReset (l : list N) | HRemove (l : list N).
  Definition h_exec (hr : ring) (c : h_call) : M hworld unit :=
    match c with
    | HAdd l => h_AddNodes hr l
    | HReset l => h_ResetNodes hr l
    | HRemove l => h_RemoveNodes hr l
    end.
  Fixpoint h_run (hr : ring) (cs : list h_call) : M hworld unit :=
    match cs with [] => ret tt | c :: cs => h_exec hr c ;;; h_run hr cs end.
  Definition empty_hworld : hworld := (World ∅ 0 0, empty_vworld).
  (** A new ring after some calls. *)
  Definition h_program (replicas : Z) (cs : list h_call) : res (ring * hworld) :=
    (hr <- h_New replicas ;; h_run hr cs ;;; ret hr) empty_hworld.
End ring.
Arguments hworld : clear implicits. Arguments h_call : clear implicits.

(** crc32.ChecksumIEEE (hash/crc32), bit by bit: reflected polynomial 0xedb88320. *)
Definition crc_bit (c : Z) : Z :=
  if Z.odd c then Z.lxor (Z.shiftr c 1) 0xedb88320 else Z.shiftr c 1.
Definition crc_byte (c : Z) (b : ascii) : Z :=
  Nat.iter 8 crc_bit (Z.lxor c (Z.of_N (N_of_ascii b))).
Fixpoint crc_bytes (c : Z) (s : string) : Z :=
  match s with EmptyString => c | String b s => crc_bytes (crc_byte c b) s end.
Definition crc32 (s : string) : Z := Z.lxor (crc_bytes 0xffffffff s) 0xffffffff.

(** hashKey, lines 85-87, for nodes that are strings: %v prints them as they are. *)
Definition hashKey_string (key : string) (index : Z) : Z :=
  crc32 (String.append key (String.append "-" (pretty index))).
