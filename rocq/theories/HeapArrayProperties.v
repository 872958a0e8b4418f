(** C173, C174: what the array of a heap keeps of the elements taken out. *)
From Coq Require Import ZifyBool ZifyNat.
From Verif Require Import Base HeapModel HeapSpec HeapProofs HeapIface HeapIfaceSpec HeapIfaceProofs HeapArray HeapArraySpec HeapArrayProofs.

Section array.
  Context {A : Type} (zero : A) (growth : nat -> nat) (less : A -> A -> bool).
  Notation I := (arr_iface zero growth less).
  Implicit Types (s : arr A) (l b : list A) (x : A).

  (** The heap types with their arrays keep the contract of the interface, so that C102 and C103 hold of them. *)
  Theorem C174_contract : implements I less (fun s l => exists b, holds s l b) (fun _ _ => True).
  Proof. apply arr_implements. Qed.

  (** ** C173 is false: heap.Pop leaves the element that it returns in the array, in every heap. *)
  Theorem C173_Pop_lets_go_refuted s l b : strict_weak less -> holds s l b -> heap_ordered less l -> l <> [] -> fits (length l) ->
    exists x s' l', g_Pop I s = Ok (x, s') /\ holds s' l' (x :: b) /\ length l' < length l /\ x ∈ a_cells s'.
  Proof.
    intros SW H Ho Hl Hf. destruct (Pop_holds zero growth less SW s l b H Ho Hl Hf) as (x&s'&l'&E&Hh&Hp&_).
    exists x, s', l'. split; [done|]. split; [done|]. split.
    - apply Permutation_length in Hp. cbn in Hp. lia.
    - destruct Hh as [-> _]. rewrite elem_of_app, elem_of_cons. auto.
  Qed.

  (** ** C174: the cells behind the heap, call by call. *)
  Theorem C174_Init s l b : strict_weak less -> holds s l b -> fits (length l) ->
    exists s' l', g_Init I s = Ok s' /\ holds s' l' b /\ l' ≡ₚ l /\ heap_ordered less l'.
  Proof. intros SW. by apply Init_holds. Qed.
  Theorem C174_Pop s l b : strict_weak less -> holds s l b -> heap_ordered less l -> l <> [] -> fits (length l) ->
    exists x s' l', g_Pop I s = Ok (x, s') /\ holds s' l' (x :: b) /\ l ≡ₚ x :: l' /\ least less x l /\ heap_ordered less l'.
  Proof. intros SW. by apply Pop_holds. Qed.
  Theorem C174_Remove s l b i x : strict_weak less -> holds s l b -> heap_ordered less l -> l !! i = Some x -> fits (length l) ->
    exists s' l', g_Remove I s (Z.of_nat i) = Ok (x, s') /\ holds s' l' (x :: b) /\ l ≡ₚ x :: l' /\ heap_ordered less l'.
  Proof. intros SW. by apply Remove_holds. Qed.
  (** Push lets go of the first cell behind; a new array has zero values behind. *)
  Theorem C174_Push s l b x : strict_weak less -> holds s l b -> heap_ordered less l -> fits (length l + 1) ->
    exists s' l', g_Push I s x = Ok s' /\ l' ≡ₚ x :: l /\ heap_ordered less l' /\
      holds s' l' (match b with [] => replicate (growth (length l)) zero | _ :: b => b end).
  Proof. intros SW H Ho Hf. destruct (Push_holds zero growth less SW s l b x H Ho Hf) as (s'&l'&?&?&?&?). eauto 10. Qed.
  (** After k Pops the last k cells of the heap hold what they returned, the last one first: popping all
      sorts the array in place. *)
  Theorem C174_pops s l b k : strict_weak less -> holds s l b -> heap_ordered less l -> k <= length l -> fits (length l) ->
    exists out s' l', g_pops I k s = Ok (out, s') /\ length out = k /\ l ≡ₚ out ++ l' /\ holds s' l' (rev out ++ b).
  Proof. intros SW H Ho Hk Hf. destruct (pops_holds zero growth less SW k s l b H Ho Hk Hf) as (out&s'&l'&?&?&?&?). eauto 10. Qed.
  Theorem C174_sorts s l b : strict_weak less -> holds s l b -> fits (length l) ->
    exists s1 out s2, g_Init I s = Ok s1 /\ g_pops I (length l) s1 = Ok (out, s2) /\
      out ≡ₚ l /\ in_order less out /\ a_cells s2 = rev out ++ b.
  Proof.
    intros SW H Hf.
    destruct (sort_sim I less _ _ (arr_implements zero growth less) s l SW (ex_intro _ b H) Hf) as (s1&out&s2&E1&E2&_&Hp&Ho).
    destruct (Init_holds zero growth less SW s l b H Hf) as (s1'&l1&E1'&H1&Hp1&Ho1). rewrite E1 in E1'. injection E1' as <-.
    pose proof (Permutation_length Hp1) as Hl1.
    destruct (pops_holds zero growth less SW (length l) s1 l1 b H1 Ho1) as (out'&s2'&l2&E2'&H2&Hp2&Hl2); [lia|by rewrite Hl1|].
    rewrite E2 in E2'. injection E2' as <- <-. exists s1, out, s2. split; [done|]. split; [done|]. split; [done|]. split; [done|].
    destruct H2 as [-> _]. apply Permutation_length in Hp2. rewrite app_length in Hp2. destruct l2; [done|cbn in Hp2; lia].
  Qed.
End array.

Print Assumptions C174_contract.
Print Assumptions C173_Pop_lets_go_refuted.
Print Assumptions C174_Init.
Print Assumptions C174_Pop.
Print Assumptions C174_Remove.
Print Assumptions C174_Push.
Print Assumptions C174_pops.
Print Assumptions C174_sorts.

(** ** Examples: a heap of five in an array of six. *)
Local Definition exI : iface (arr Z) Z := arr_iface 0%Z (fun n => n) Z.ltb.
Local Definition ex_start : arr Z := Arr [5; 3; 8; 1; 4; 0]%Z 5.
Local Definition ex_init : arr Z := Arr [1; 3; 8; 5; 4; 0]%Z 5.
Example C173_example :
  strict_weak Z.ltb /\ holds ex_init [1; 3; 8; 5; 4]%Z [0]%Z /\ heap_ordered Z.ltb [1; 3; 8; 5; 4]%Z /\
  g_Pop exI ex_init = Ok (1%Z, Arr [3; 4; 8; 5; 1; 0]%Z 4).
Proof.
  split; [split; [|split]; intros *; lia|]. split; [done|]. split; [|vm_compute; reflexivity].
  intros c x y Hc. do 5 (destruct c as [|c]; [first [lia|cbn; congruence || (intros; simplify_eq; lia)]|]). intros Hx. by vm_compute in Hx.
Qed.
Example C174_example :
  holds ex_start [5; 3; 8; 1; 4]%Z [0]%Z /\ fits 6 /\ g_Init exI ex_start = Ok ex_init /\
  g_pops exI 5 ex_init = Ok ([1; 3; 4; 5; 8]%Z, Arr [8; 5; 4; 3; 1; 0]%Z 0) /\
  g_Remove exI ex_init 1 = Ok (3%Z, Arr [1; 4; 8; 5; 3; 0]%Z 4) /\
  g_Push exI ex_init 2%Z = Ok (Arr [1; 3; 2; 5; 4; 8]%Z 6) /\
  rbind (g_Push exI ex_init 2%Z) (fun s => g_Push exI s 9%Z) = Ok (Arr [1; 3; 2; 5; 4; 8; 9; 0; 0; 0; 0; 0; 0]%Z 7).
Proof. split; [done|]. split; [done|]. repeat split; vm_compute; reflexivity. Qed.
