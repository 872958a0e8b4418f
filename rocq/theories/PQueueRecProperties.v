(** Property theorems for priority queues whose panics are recovered (C220). *)
From Coq Require Import ZifyBool ZifyNat.
From Verif Require Import Base HeapModel HeapSpec HeapIface HeapIfaceSpec HeapIfaceProofs HeapIfaceProperties HeapPanicSpec HeapPanicProperties.
From Verif Require Import PQueueModel PQueueSpec PQueueProofs PQueueRecModel PQueueRecSpec.

Lemma q_run_from {V} k (cs : list (q_call V)) : forall s : list (item V),
  heap_ordered (q_less k) s -> fits (length s + length cs) ->
  exists tr s', q_run (Some k) cs s = Some (tr, s') /\ map fst tr = cs /\ rec_behaves (beats_of k) s tr s'.
Proof.
  assert (SW : strict_weak (q_less (V := V) k)) by (destruct k; [apply minq_strict_weak|apply maxq_strict_weak]).
  assert (Im := slice_implements (q_less (V := V) k)).
  induction cs as [|c cs IH]; intros s Hh Hf; [exists [], s; repeat split; constructor|].
  unfold fits in *. cbn [length] in Hf. cbn [q_run]. destruct c as [|p v|].
  - destruct (IH s Hh) as (tr & s' & H1 & H2 & H3); [lia|]. cbn. rewrite H1.
    exists ((QLen, Some (QInt (Z.of_nat (length s)))) :: tr), s'. repeat split; [|by constructor]. cbn. by rewrite H2.
  - destruct (C102_Push _ _ _ _ _ _ s s (p, v) Im SW eq_refl Hh I) as (s1 & l1 & Hp & Hl & Hperm & Hh1); [unfold fits; lia|]. subst l1.
    assert (Hp' : p_Push (q_iface k) (p, v) s = Fine tt s1) by (by apply C181_same).
    cbn [q_exec on_heap]. unfold pbind. rewrite Hp'. unfold preturn.
    destruct (IH s1 Hh1) as (tr & s' & H1 & H2 & H3); [rewrite Hperm; cbn [length]; lia|]. rewrite H1.
    exists ((QPush p v, Some QUnit) :: tr), s'. repeat split; [cbn; by rewrite H2|]. by apply rb_push with s1.
  - destruct (decide (s = [])) as [->|Hne].
    + destruct (IH [] Hh) as (tr & s' & H1 & H2 & H3); [cbn in *; lia|].
      assert (Hq : q_exec (V := V) (Some k) QPop [] = Broken []) by reflexivity. rewrite Hq, H1.
      exists ((QPop, None) :: tr), s'. repeat split; [cbn; by rewrite H2|]. by constructor.
    + destruct (C102_Pop _ _ _ _ _ _ s s Im SW eq_refl Hh Hne) as ([p v] & s1 & l1 & Hp & Hl & Hperm & H0 & Hle & Hh1); [unfold fits; lia|]. subst l1.
      assert (Hp' : p_Pop (q_iface k) s = Fine (p, v) s1) by (by apply C181_same).
      cbn [q_exec on_heap]. unfold pbind. rewrite Hp'. unfold preturn. cbn [fst snd].
      destruct (IH s1 Hh1) as (tr & s' & H1 & H2 & H3); [rewrite Hperm in Hf; cbn [length] in Hf; lia|]. rewrite H1.
      exists ((QPop, Some (QPair p v)) :: tr), s'. repeat split; [cbn; by rewrite H2|]. apply rb_pop with s1; [done| |done].
      intros y Hy Hb. specialize (Hle y Hy).
      destruct k; unfold q_less, minq_less, maxq_less, beats_of in *; cbn [fst] in *; lia.
Qed.

(** C220.  Any calls, Pops of an empty queue included: those panic, and the queue goes on as if they had not been. *)
Theorem C220_history : forall (V : Type) (k : kind) (cs : list (q_call V)),
  fits (length cs) ->
  exists tr s, q_run (Some k) cs [] = Some (tr, s) /\ map fst tr = cs /\ rec_behaves (beats_of k) [] tr s.
Proof. intros V k cs Hf. apply q_run_from; [|done]. intros c x y _ Hc. done. Qed.
Print Assumptions C220_history.

(** Every call on the zero PQueue panics. *)
Theorem C220_zero : forall (V : Type) (cs : list (q_call V)) s, q_run None cs s = Some (map (fun c => (c, None)) cs, s).
Proof. intros V cs s. induction cs as [|c cs IH]; [done|]. destruct c; cbn; by rewrite IH. Qed.
Print Assumptions C220_zero.

Example C220_example :
  q_run (Some MaxQ) [QPop; QPush 1 10; QPush 5 50; QPop; QPop; QPop; QPush 2 20; QLen; QPop] [] =
  Some ([(QPop, None); (QPush 1 10, Some QUnit); (QPush 5 50, Some QUnit); (QPop, Some (QPair 5 50)); (QPop, Some (QPair 1 10));
         (QPop, None); (QPush 2 20, Some QUnit); (QLen, Some (QInt 1)); (QPop, Some (QPair 2 20))], []).
Proof. reflexivity. Qed.
