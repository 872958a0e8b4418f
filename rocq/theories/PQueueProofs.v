From Verif Require Import Base HeapModel HeapSpec HeapProofs PQueueModel PQueueSpec.
From Coq Require Import ZifyBool ZifyNat.

Lemma minq_strict_weak V : strict_weak (@minq_less V).
Proof. unfold strict_weak, minq_less. repeat split; intros; lia. Qed.
Lemma maxq_strict_weak V : strict_weak (@maxq_less V).
Proof. unfold strict_weak, maxq_less. repeat split; intros; lia. Qed.

Lemma pq_behaves_prio {V} k (b : list (Z * V)) evs outs b2 :
  pq_behaves (q_less k) b evs outs b2 -> prio_behaves (beats_of k) b evs outs b2.
Proof.
  induction 1 as [b|b b1 x evs outs b2 Hp _ IH|b b1 x evs outs b2 Hp Hl _ IH].
  - constructor.
  - by apply prio_push with b1.
  - apply prio_pop with b1; auto. intros y Hy Hb. specialize (Hl y Hy).
    destruct k; unfold q_less, minq_less, maxq_less, beats_of in *; lia.
Qed.

Lemma pq_run_heap {V} k (q : pqueue V) cs :
  pq_kind q = k ->
  pq_run q cs =
  match heap_run (q_less k) (pq_items q)
          (map (fun c => match c with CPush p v => OpPush (p, v) | CPop => OpPop end) cs) with
  | Ok (outs, h) => Ok (outs, PQ k h)
  | Panic => Panic
  | NoFuel => NoFuel
  end.
Proof.
  revert q. induction cs as [|[p v|] cs IH]; intros q Hk; cbn [pq_run heap_run map].
  - by destruct q; simpl in *; subst.
  - unfold pq_Push. rewrite Hk.
    destruct (heap_Push (q_less k) (pq_items q) (p, v)) as [h| |]; cbn [rbind]; auto.
    rewrite IH; auto.
  - unfold pq_Pop. rewrite Hk.
    destruct (heap_Pop (q_less k) (pq_items q)) as [[[p v] h]| |]; cbn [rbind fst snd]; auto.
    rewrite IH by done. simpl.
    destruct (heap_run (q_less k) h _) as [[outs h']| |]; cbn [rbind]; auto.
Qed.

Lemma pq_behaves_length {A} (less : A -> A -> bool) b evs outs b2 :
  pq_behaves less b evs outs b2 ->
  length b2 + length (filter (fun e => e = None) evs) =
  length b + length (filter (fun e => e <> None) evs).
Proof.
  induction 1 as [b|b b1 x evs outs b2 Hp _ IH|b b1 x evs outs b2 Hp Hl _ IH].
  - done.
  - rewrite filter_cons_False by done. rewrite filter_cons_True by done. simpl.
    rewrite (Permutation_length Hp) in IH. simpl in IH. lia.
  - rewrite filter_cons_True by done. rewrite filter_cons_False by naive_solver. simpl.
    rewrite (Permutation_length Hp). simpl. lia.
Qed.

Lemma pq_run_spec {V} (k : kind) (cs : list (pq_call V)) :
  pops_allowed 0 (map call_event cs) ->
  exists outs q,
    pq_run (kind_new k) cs = Ok (outs, q) /\
    prio_behaves (beats_of k) [] (map call_event cs) outs (pq_items q) /\
    (pq_Len q + Z.of_nat (length (filter (fun e => e = None) (map call_event cs)))
      = Z.of_nat (length (filter (fun e => e <> None) (map call_event cs))))%Z.
Proof.
  intros Hpa.
  set (ops := map (fun c => match c with CPush p v => OpPush (p, v) | CPop => OpPop end) cs).
  assert (Hev : map ev_of ops = map call_event cs).
  { unfold ops. rewrite map_map. apply map_ext. by intros []. }
  destruct (heap_run_spec (q_less k) ops []) as (outs & h & Hr & _ & Hb).
  - destruct k; [apply minq_strict_weak|apply maxq_strict_weak].
  - intros c x y _ Hc. done.
  - change (pops_allowed 0 (map ev_of ops)). unfold item in *. rewrite Hev. exact Hpa.
  - exists outs, (PQ k h).
    rewrite (pq_run_heap k) by (by destruct k).
    replace (pq_items (kind_new k)) with (@nil (Z * V)) by (by destruct k).
    fold ops. unfold item in *. rewrite Hr. split; [done|].
    rewrite Hev in Hb. split; [by apply pq_behaves_prio|].
    apply pq_behaves_length in Hb. unfold pq_Len, h_len. simpl in *. unfold item in *. lia.
Qed.

Lemma pq_pop_empty {V} (k : kind) : pq_Pop (@kind_new V k) = Panic.
Proof. by destruct k. Qed.

Lemma pq_ties_not_fifo (V : Type) (k : kind) (a b c : V) :
  exists q, pq_run (kind_new k) [CPush 0 a; CPush 0 b; CPush 0 c; CPop; CPop; CPop]%Z
    = Ok ([(0, a); (0, c); (0, b)]%Z, q).
Proof. destruct k; eexists; reflexivity. Qed.
