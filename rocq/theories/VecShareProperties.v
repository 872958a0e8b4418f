(** C198: the slices that Slice and SliceCut return share the array of the vector. *)
From Coq Require Import ZifyBool ZifyNat.
From Verif Require Import Base VecModel VecSpec VecProofs VecSteps VecHistory VecQuery VecExample VecShare.

Section share.
  Context {T : Type} (zero : T) (growth : nat -> nat -> nat -> nat) (auto_equal : option (T -> T -> bool)).
  Context (srt srt_stable : (T -> T -> Z) -> list T -> list T).
  (** Sorting returns a permutation. *)
  Context (Hsrt : forall f l, srt f l ≡ₚ l) (Hsrt2 : forall f l, srt_stable f l ≡ₚ l).
  Notation reached := (v_reached zero growth auto_equal srt srt_stable).
  Notation capacity w v := (s_cap (v_d (w_vec w v))).
  Implicit Types (st : state T) (w : vworld T) (v u : nat) (x : T) (s : slice).

  Lemma inv_of st : reached st -> inv (fst st).
  Proof. apply (reached_inv _ _ _ _ _ Hsrt Hsrt2). Qed.
  Lemma wf_of st v : reached st -> v < w_vn (fst st) -> wf (fst st) (v_d (w_vec (fst st) v)).
  Proof. intros Hr. by apply (i_wf _ (inv_of _ Hr)). Qed.

  (** Slice is SliceCut of everything, so what follows covers it too. *)
  Theorem C198_Slice_is_SliceCut st v : reached st -> v < w_vn (fst st) ->
    Slice v (fst st) = SliceCut v 0 (Z.of_nat (length (vseq (fst st) v))) (fst st).
  Proof.
    intros Hr Hv. pose proof (wf_of _ _ Hr Hv) as Hwf. pose proof (wf_len_cap _ _ Hwf).
    pose proof (contents_length (fst st) _ Hwf) as Hl. unfold vseq. rewrite Hl.
    unfold Slice, SliceCut, bind. rewrite Len_eq. cbv beta iota. replace (_ || _ || _)%bool with false by lia.
    unfold get_d, reslice. replace (_ && _ && _)%bool with true by lia.
    rewrite Z.sub_0_r, Nat2Z.id. change (Z.to_nat 0) with 0. rewrite Nat.add_0_r, Nat.sub_0_r.
    by destruct (v_d (w_vec (fst st) v)).
  Qed.

  (** Writing element [k] of [SliceCut i j] sets element [i + k] of the vector, and changes no other
      vector. *)
  Theorem C198_write_through st v i j k x s w1 w' : reached st -> v < w_vn (fst st) ->
    SliceCut v i j (fst st) = Ok (s, w1) -> user_write s k x (fst st) = Ok (tt, w') ->
    (0 <= k < j - i)%Z /\ vseq w' v = <[Z.to_nat (i + k) := x]> (vseq (fst st) v) /\
    forall u, u < w_vn (fst st) -> u <> v -> vseq w' u = vseq (fst st) u.
  Proof.
    intros Hr Hv Hs Hu. destruct (write_through growth _ _ _ _ _ _ _ _ _ (wf_of _ _ Hr Hv) Hs Hu) as (Hk&Hq&Hvec&Harr&_).
    split; [done|]. split; [done|]. intros u Hlt Hne. unfold vseq. rewrite Hvec.
    unfold contents. destruct (s_arr (v_d (w_vec (fst st) u))) as [a|] eqn:Ea; [|done]. rewrite Harr; [done|].
    intros Eb. apply Hne. by eapply (i_own _ (inv_of _ Hr)).
  Qed.

  (** Setting element [i + k] of the vector is seen in the slice. *)
  Theorem C198_seen_through st v i j k x s w1 b w' : reached st -> v < w_vn (fst st) ->
    SliceCut v i j (fst st) = Ok (s, w1) -> s <> nil_slice -> (0 <= k < j - i)%Z ->
    Set_ v (i + k) x (fst st) = Ok (b, w') -> b = true /\ contents w' s = <[Z.to_nat k := x]> (contents (fst st) s).
  Proof. intros Hr Hv Hs Hn Hk. intros Hset. exact (seen_through growth _ _ _ _ _ _ _ _ _ _ (wf_of _ _ Hr Hv) Hs Hk Hn Hset). Qed.

  (** append to the slice overwrites what follows it in the vector, if the capacity of the vector is
      enough; otherwise the vector stays as it is. *)
  Theorem C198_append_overwrites st v i j vs s w1 s' w' : reached st -> v < w_vn (fst st) ->
    SliceCut v i j (fst st) = Ok (s, w1) -> s <> nil_slice -> go_append zero growth s vs (fst st) = Ok (s', w') ->
    contents w' s' = contents (fst st) s ++ vs /\
    let l := vseq (fst st) v in
    vseq w' v = if (Z.to_nat j + length vs <=? capacity (fst st) v)%nat
      then take (length l) (take (Z.to_nat j) l ++ vs ++ drop (Z.to_nat j + length vs) l) else l.
  Proof.
    intros Hr Hv Hs Hn Ha. destruct (append_part zero growth _ _ _ _ _ _ _ _ _ (wf_of _ _ Hr Hv) Hs Hn Ha) as (H1&_&H2). done.
  Qed.

  (** After append to the whole slice, Push writes over what was appended. *)
  Theorem C198_Push_overwrites st v vs ys s s' w1 w2 r w3 : reached st -> v < w_vn (fst st) ->
    Slice v (fst st) = Ok (s, w1) -> length (vseq (fst st) v) + length vs <= capacity (fst st) v ->
    length ys <= length vs ->
    go_append zero growth s vs (fst st) = Ok (s', w2) -> Push zero growth v ys w2 = Ok (r, w3) ->
    contents w2 s' = vseq (fst st) v ++ vs /\ vseq w3 v = vseq (fst st) v ++ ys /\
    contents w3 s' = vseq (fst st) v ++ ys ++ drop (length ys) vs.
  Proof.
    intros Hr Hv Hs Hcap Hy Ha Hp. pose proof (wf_of _ _ Hr Hv) as Hwf.
    injection Hs as <- <-. eapply append_then_push; try done. unfold vseq in Hcap. by rewrite contents_length in Hcap.
  Qed.

  (** A Push that needs more than the capacity ends the sharing: the slice keeps its elements, writing
      to it does not change the vector, and setting elements of the vector does not change it. *)
  Theorem C198_growth_detaches st v i j s w1 vs r w2 : reached st -> v < w_vn (fst st) ->
    SliceCut v i j (fst st) = Ok (s, w1) -> capacity (fst st) v < length (vseq (fst st) v) + length vs ->
    Push zero growth v vs (fst st) = Ok (r, w2) ->
    contents w2 s = contents (fst st) s /\ vseq w2 v = vseq (fst st) v ++ vs /\
    (forall k x w3, user_write s k x w2 = Ok (tt, w3) -> vseq w3 v = vseq w2 v) /\
    (forall k x b w3, Set_ v k x w2 = Ok (b, w3) -> contents w3 s = contents w2 s).
  Proof.
    intros Hr Hv Hs Hcap Hp. pose proof (wf_of _ _ Hr Hv) as Hwf. unfold vseq in Hcap. rewrite contents_length in Hcap by done.
    destruct (Push_detaches zero growth _ _ _ _ _ (inv_of _ Hr) Hv Hcap Hp) as [Ha Hold].
    destruct (Push_gen zero growth srt srt (fst st) v (inv_of _ Hr) Hv vs) as (w'&E&Hq&_). rewrite E in Hp. injection Hp as <- <-.
    assert (Hdiff : forall a, s_arr s = Some a -> s_arr (v_d (w_vec w' v)) <> Some a).
    { intros a Hsa. rewrite Ha. intros [= <-].
      destruct (SliceCut_part growth _ _ _ _ _ _ Hwf Hs) as [_ [[-> _]|[-> _]]]; [done|].
      unfold part in Hsa. cbn in Hsa. unfold wf in Hwf. rewrite Hsa in Hwf. lia. }
    split; [|split; [done|split]].
    - destruct (SliceCut_part growth _ _ _ _ _ _ Hwf Hs) as [_ [[-> _]|[-> _]]]; [done|]. by apply (part_same growth).
    - intros k x w3. by apply other_write.
    - intros k x b w3. by apply other_set.
  Qed.
End share.

(** A vector of five elements with capacity 12 (the arrays double), and its part from 1 to 3. *)
Definition share_run : list (v_op Z) := [ONew None None; OCall 0 (VPush [1; 2; 3; 4; 5; 6]%Z); OCall 0 VPop].
Definition the_slice (r : res (slice * vworld Z)) : slice := match r with Ok (s, _) => s | _ => nil_slice end.
Definition seq_after {A} (r : res (A * vworld Z)) : option (list Z) := match r with Ok (_, w) => Some (vseq w 0) | _ => None end.
Example C198_example : exists st, v_reached 0%Z (fun _ _ n => 2 * n) (Some Z.eqb) isort isort st /\
  vseq (fst st) 0 = [1; 2; 3; 4; 5]%Z /\ s_cap (v_d (w_vec (fst st) 0)) = 12 /\
  let s := the_slice (SliceCut 0 1 3 (fst st)) in
  contents (fst st) s = [2; 3]%Z /\
  seq_after (user_write s 1 30%Z (fst st)) = Some [1; 2; 30; 4; 5]%Z /\
  seq_after (go_append 0%Z (fun _ _ n => 2 * n) s [40; 50; 60]%Z (fst st)) = Some [1; 2; 3; 40; 50]%Z /\
  seq_after (go_append 0%Z (fun _ _ n => 2 * n) s (replicate 10 7%Z) (fst st)) = Some [1; 2; 3; 4; 5]%Z.
Proof. apply (run_reached _ _ _ _ _ share_run). vm_compute. repeat split; reflexivity. Qed.

Print Assumptions C198_Slice_is_SliceCut. Print Assumptions C198_write_through. Print Assumptions C198_seen_through.
Print Assumptions C198_append_overwrites. Print Assumptions C198_Push_overwrites. Print Assumptions C198_growth_detaches.
