(** C171, C172: what the array of a vector keeps of the elements taken out. *)
From Coq Require Import ZifyBool ZifyNat.
From Verif Require Import Base VecModel VecSpec VecProofs VecSteps VecHistory VecQuery VecExample VecHeldSpec VecHeld.

Section held.
  Context {T : Type} (zero : T) (growth : nat -> nat -> nat -> nat) (auto_equal : option (T -> T -> bool)).
  Context (srt srt_stable : (T -> T -> Z) -> list T -> list T).
  (** Sorting returns a permutation. *)
  Context (Hsrt : forall f l, srt f l ≡ₚ l) (Hsrt2 : forall f l, srt_stable f l ≡ₚ l).
  Notation reached := (v_reached zero growth auto_equal srt srt_stable).
  Notation exec := (v_exec zero growth auto_equal srt srt_stable).
  Implicit Types (st : state T) (w : vworld T) (v : nat) (x y : T).

  Lemma reached_wf st v : reached st -> v < w_vn (fst st) -> wf (fst st) (v_d (w_vec (fst st) v)).
  Proof. intros Hr Hv. pose proof (reached_inv _ _ _ _ _ Hsrt Hsrt2 _ Hr) as Hi. by apply (i_wf _ Hi). Qed.
  (** The sequence after a call, from C37's step lemma. *)
  Lemma reached_vseq st v c r w' : reached st -> v < w_vn (fst st) -> exec v c (fst st) = Ok (r, w') ->
    exists a l', v_spec zero srt srt_stable (cmp_equal auto_equal (S v) (fst st) v) c (vseq (fst st) v) = Some (a, l') /\ vseq w' v = l'.
  Proof.
    intros Hr Hv H. pose proof (v_step zero growth auto_equal srt srt_stable (fst st) v c Hsrt Hsrt2 (reached_inv _ _ _ _ _ Hsrt Hsrt2 _ Hr) Hv) as Hs.
    unfold v_does in Hs. destruct (v_spec _ _ _ _ _ _) as [[a l']|] eqn:E; [|by rewrite Hs in H].
    destruct Hs as (r1&w1&E1&_&Hq&_). rewrite E1 in H. injection H as _ <-. eauto.
  Qed.

  (** ** C171 is false of Pop, Clear, Remove and Cut: the array keeps elements that were taken out.
      Always, not only in a bad case. *)
  Theorem C171_Pop_lets_go_refuted st v l x r w' : reached st -> v < w_vn (fst st) -> vseq (fst st) v = l ++ [x] ->
    exec v VPop (fst st) = Ok (r, w') -> vseq w' v = l /\ held w' v = held (fst st) v /\ head (behind w' v) = Some x.
  Proof.
    intros Hr Hv Hl H. pose proof (reached_wf st v Hr Hv) as Hwf.
    destruct (reached_vseq _ _ _ _ _ Hr Hv H) as (a&l'&Es&Hq). cbn [v_spec] in Es.
    cbn [v_exec] in H. unfold bind in H. destruct (Pop zero v (fst st)) as [[p w1]| |] eqn:Ep; [|done..]. injection H as _ <-.
    split; [|split; [by eapply Pop_held|]].
    - injection Es as _ <-. rewrite Hq, Hl. unfold removed, in_range. rewrite app_length. cbn [length].
      replace (_ && _)%bool with true by lia. replace (Z.to_nat _) with (length l) by lia. rewrite delete_middle. apply app_nil_r.
    - rewrite (Pop_behind zero growth _ _ _ _ Hwf Ep), Hl, app_length. cbn [length].
      replace (length l + 1 - 1) with (length l) by lia. by rewrite drop_app.
  Qed.
  Theorem C171_Clear_lets_go_refuted st v r w' : reached st -> v < w_vn (fst st) -> exec v VClear (fst st) = Ok (r, w') ->
    vseq w' v = [] /\ held w' v = held (fst st) v /\ forall x, x ∈ vseq (fst st) v -> x ∈ behind w' v.
  Proof.
    intros Hr Hv H. pose proof (reached_wf st v Hr Hv) as Hwf.
    destruct (reached_vseq _ _ _ _ _ Hr Hv H) as (a&l'&Es&Hq). cbn [v_spec] in Es.
    cbn [v_exec] in H. unfold bind in H. destruct (Clear v (fst st)) as [[[] w1]| |] eqn:Ep; [|done..]. injection H as _ <-.
    split; [|split; [by eapply Clear_held|]].
    - by injection Es as _ <-.
    - intros x Hx. rewrite (Clear_behind growth _ _ _ Hwf Ep). apply elem_of_app. by left.
  Qed.

  (** ** C172.  What is kept behind the last element, exactly.  Remove keeps the old last element (once
      more), Cut the last j - i ones. *)
  Theorem C172_Pop st v r w' : reached st -> v < w_vn (fst st) -> exec v VPop (fst st) = Ok (r, w') ->
    behind w' v = drop (length (vseq (fst st) v) - 1) (vseq (fst st) v) ++ behind (fst st) v.
  Proof.
    intros Hr Hv H. pose proof (reached_wf st v Hr Hv) as Hwf.
    cbn [v_exec] in H. unfold bind in H. destruct (Pop zero v (fst st)) as [[p w1]| |] eqn:Ep; [|done..]. injection H as _ <-.
    exact (Pop_behind zero growth _ _ _ _ Hwf Ep).
  Qed.
  Theorem C172_Remove st v i r w' : reached st -> v < w_vn (fst st) -> in_range i (vseq (fst st) v) = true ->
    exec v (VRemove i) (fst st) = Ok (r, w') ->
    behind w' v = drop (length (vseq (fst st) v) - 1) (vseq (fst st) v) ++ behind (fst st) v.
  Proof.
    intros Hr Hv Hi H. pose proof (reached_wf st v Hr Hv) as Hwf. unfold in_range in Hi.
    cbn [v_exec] in H. unfold bind in H. destruct (Remove zero v i (fst st)) as [[p w1]| |] eqn:Ep; [|done..]. injection H as _ <-.
    refine (Remove_behind zero growth _ _ i _ _ Hwf _ Ep). lia.
  Qed.
  Theorem C172_Clear st v r w' : reached st -> v < w_vn (fst st) -> exec v VClear (fst st) = Ok (r, w') ->
    behind w' v = vseq (fst st) v ++ behind (fst st) v.
  Proof.
    intros Hr Hv H. pose proof (reached_wf st v Hr Hv) as Hwf.
    cbn [v_exec] in H. unfold bind in H. destruct (Clear v (fst st)) as [[[] w1]| |] eqn:Ep; [|done..]. injection H as _ <-.
    exact (Clear_behind growth _ _ _ Hwf Ep).
  Qed.
  Theorem C172_Cut st v i j r w' : reached st -> v < w_vn (fst st) -> good_range i j (vseq (fst st) v) = true ->
    exec v (VCut i j) (fst st) = Ok (r, w') ->
    behind w' v = drop (length (vseq (fst st) v) - Z.to_nat (j - i)) (vseq (fst st) v) ++ behind (fst st) v.
  Proof.
    intros Hr Hv Hi H. pose proof (reached_wf st v Hr Hv) as Hwf. unfold good_range in Hi.
    cbn [v_exec] in H. unfold bind in H. destruct (Cut zero growth v i j (fst st)) as [[p w1]| |] eqn:Ep; [|done..]. injection H as _ <-.
    refine (Cut_behind zero growth _ _ i j _ _ Hwf _ _ Ep); lia.
  Qed.
  (** Delete zeroes what it frees, and so do Replace, Insert and Compact: nothing is kept behind the last
      element that was not kept there before, and no element taken out is. *)
  Theorem C172_Delete st v i j r w' : reached st -> v < w_vn (fst st) -> exec v (VDelete i j) (fst st) = Ok (r, w') ->
    behind w' v = replicate (Z.to_nat (j - i)) zero ++ behind (fst st) v.
  Proof.
    intros Hr Hv H. pose proof (reached_wf st v Hr Hv) as Hwf.
    destruct (reached_vseq _ _ _ _ _ Hr Hv H) as (a&l'&Es&Hq). cbn [v_spec] in Es. destruct (good_range _ _ _) eqn:G in Es; [|done]. clear Es Hq.
    unfold good_range in G.
    cbn [v_exec] in H. unfold bind in H. destruct (Delete zero growth v i j (fst st)) as [[[] w1]| |] eqn:Ep; [|done..]. injection H as _ <-.
    assert (length (held (fst st) v) = length (vseq (fst st) v) + length (behind (fst st) v)) as Hlen.
    { rewrite <- app_length. by rewrite <- held_split. }
    destruct (Replace_behind zero growth _ _ i j [] _ Hwf Ep) as [[_ E]|[Hlt _]]; cbn [length] in *.
    - rewrite E. f_equal; [f_equal; lia|]. replace (_ - _) with 0 by lia. apply drop_0.
    - lia.
  Qed.
  Theorem C172_Replace st v i j vs r w' : reached st -> v < w_vn (fst st) -> exec v (VReplace i j vs) (fst st) = Ok (r, w') ->
    lets_go zero (fst st) v w'.
  Proof.
    intros Hr Hv H x. pose proof (reached_wf st v Hr Hv) as Hwf.
    cbn [v_exec] in H. unfold bind in H. destruct (Replace zero growth v i j vs (fst st)) as [[[] w1]| |] eqn:Ep; [|done..]. injection H as _ <-.
    destruct (Replace_behind zero growth _ _ i j vs _ Hwf Ep) as [[_ ->]|[_ [k ->]]].
    - rewrite elem_of_app. intros [Hx|Hx]; [left; by apply elem_of_replicate in Hx as [-> _]|right].
      apply elem_of_list_lookup in Hx as [n Hx]. rewrite lookup_drop in Hx. by eapply elem_of_list_lookup_2.
    - intros Hx. left. by apply elem_of_replicate in Hx as [-> _].
  Qed.
  Theorem C172_Insert st v i vs r w' : reached st -> v < w_vn (fst st) -> exec v (VInsert i vs) (fst st) = Ok (r, w') ->
    lets_go zero (fst st) v w'.
  Proof. intros Hr Hv H. by eapply (C172_Replace st v i i vs r). Qed.
  Theorem C172_Compact st v eq r w' : reached st -> v < w_vn (fst st) -> exec v (VCompactFunc eq) (fst st) = Ok (r, w') ->
    behind w' v = replicate (length (vseq (fst st) v) - length (vseq w' v)) zero ++ behind (fst st) v.
  Proof.
    intros Hr Hv H. pose proof (reached_wf st v Hr Hv) as Hwf.
    cbn [v_exec] in H. unfold bind in H. destruct (CompactFunc zero v _ (fst st)) as [[[] w1]| |] eqn:Ep; [|done..]. injection H as _ <-.
    exact (Compact_behind zero growth _ _ _ _ Hwf Ep).
  Qed.
End held.

Print Assumptions C171_Pop_lets_go_refuted.
Print Assumptions C171_Clear_lets_go_refuted.
Print Assumptions C172_Pop.
Print Assumptions C172_Remove.
Print Assumptions C172_Clear.
Print Assumptions C172_Cut.
Print Assumptions C172_Delete.
Print Assumptions C172_Replace.
Print Assumptions C172_Insert.
Print Assumptions C172_Compact.

(** ** Examples *)
Local Definition ex_after (cs : list (v_call Z)) : list Z * list Z :=
  match run_ops 0%Z (fun _ _ n => n + 1) (Some Z.eqb) isort isort (empty_vworld, [])
    (ONew None None :: OCall 0 (VPush [1; 2; 3; 3; 4]%Z) :: map (OCall 0) cs) with
  | Some st => (vseq (fst st) 0, behind (fst st) 0) | None => ([], []) end.
(** The capacity is 6, its last cell zero at first. *)
Example C171_example :
  ex_after [] = ([1; 2; 3; 3; 4], [0])%Z /\ ex_after [VPop] = ([1; 2; 3; 3], [4; 0])%Z /\
  ex_after [VPop; VPop] = ([1; 2; 3], [3; 4; 0])%Z /\ ex_after [VClear] = ([], [1; 2; 3; 3; 4; 0])%Z /\
  exists st, v_reached 0%Z (fun _ _ n => n + 1) (Some Z.eqb) isort isort st /\ 0 < w_vn (fst st) /\ vseq (fst st) 0 = ([1; 2; 3; 3] ++ [4])%Z.
Proof.
  split; [vm_compute; reflexivity|]. split; [vm_compute; reflexivity|]. split; [vm_compute; reflexivity|]. split; [vm_compute; reflexivity|].
  apply (run_reached 0%Z (fun _ _ n => n + 1) (Some Z.eqb) isort isort [ONew None None; OCall 0 (VPush [1; 2; 3; 3; 4]%Z)]
    (fun st => 0 < w_vn (fst st) /\ vseq (fst st) 0 = ([1; 2; 3; 3] ++ [4])%Z)).
  vm_compute. split; [lia|reflexivity].
Qed.
Example C172_example :
  ex_after [VRemove 1] = ([1; 3; 3; 4], [4; 0])%Z /\ ex_after [VCut 1 3] = ([1; 3; 4], [3; 4; 0])%Z /\
  ex_after [VDelete 1 3] = ([1; 3; 4], [0; 0; 0])%Z /\ ex_after [VReplace 1 4 [9]%Z] = ([1; 9; 4], [0; 0; 0])%Z /\
  ex_after [VPop; VInsert 0 [9]%Z] = ([9; 1; 2; 3; 3], [0])%Z /\ ex_after [VCompactFunc Z.eqb] = ([1; 2; 3; 4], [0; 0])%Z.
Proof. repeat split; vm_compute; reflexivity. Qed.
