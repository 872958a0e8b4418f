(** Property C130: genmap CopyFromRaw and CopyToRaw *)
From Verif Require Import Base GoMap GoMapSpec GoMapProofs GenMapModel GenMapSpec GenMapProofs.

Section properties.
  Context {K V : Type} (eqb : K -> K -> bool) (upd : bool) (ord : nat -> list (K * V) -> list (K * V)) (zero : V).
  Context (E : equivb eqb) (ordP : forall n l, ord n l ≡ₚ l).
  Implicit Types (w : world K V) (m : ref).
  Notation at_ w m := (tab (gabs eqb w) m).

  Lemma refs2 w (a b : ref) : (forall k, a = Some k -> k < next w) -> (forall k, b = Some k -> k < next w) ->
    forall k, Some k ∈ [a; b] -> k < next w.
  Proof. intros Ha Hb k Hk. apply elem_of_cons in Hk as [Hk|Hk]; [by apply Ha|]. apply elem_of_list_singleton in Hk. by apply Hb. Qed.

  (** What is in the source goes over what is in the destination; nothing else changes.  The source
      may be nil, and may be the destination itself. *)
  Theorem C130_CopyFromRaw n src w : wf eqb w -> n < next w -> (forall k, src = Some k -> k < next w) ->
    exists w', gm_CopyFromRaw eqb upd ord (Some n) src w = Ok (Some n, w') /\
      becomes (gabs eqb w) (gabs eqb w') n (over (at_ w (Some n)) (at_ w src)).
  Proof.
    intros Hw Hn Hs. destruct (gm_step eqb upd ord zero (GCopyFrom (Some n) src) w) as [r w'] eqn:Es.
    destruct (gm_step_spec eqb upd E ord ordP zero (GCopyFrom (Some n) src) _ _ _ Hw (refs2 w (Some n) src ltac:(by intros k [= <-]) Hs) Es) as [_ Hd].
    inversion Hd; subst. exists w'. split; [|done].
    unfold gm_step in Es. cbn in Es. unfold mmap, bind in Es. unfold gm_CopyFromRaw. unfold gm_CopyFrom in Es.
    destruct (bind (maps_Copy eqb upd ord (Some n) src) _ w) as [[r' w2]| |] eqn:Eb; [|done..]. by injection Es as -> ->.
  Qed.
  Theorem C130_CopyToRaw n m w : wf eqb w -> n < next w -> (forall k, m = Some k -> k < next w) ->
    exists w', gm_CopyToRaw eqb upd ord m (Some n) w = Ok (m, w') /\
      becomes (gabs eqb w) (gabs eqb w') n (over (at_ w (Some n)) (at_ w m)).
  Proof.
    intros Hw Hn Hs. destruct (gm_step eqb upd ord zero (GCopyTo m (Some n)) w) as [r w'] eqn:Es.
    destruct (gm_step_spec eqb upd E ord ordP zero (GCopyTo m (Some n)) _ _ _ Hw (refs2 w m (Some n) Hs ltac:(by intros k [= <-])) Es) as [_ Hd].
    inversion Hd; subst. exists w'. split; [|done].
    unfold gm_step in Es. cbn in Es. unfold mmap, bind in Es. unfold gm_CopyToRaw. unfold gm_CopyTo in Es.
    destruct (bind (maps_Copy eqb upd ord (Some n) m) _ w) as [[r' w2]| |] eqn:Eb; [|done..]. by injection Es as -> ->.
  Qed.
  (** Copying into a nil map panics unless there is nothing to copy. *)
  Theorem C130_nil m w : wf eqb w -> (forall k, m = Some k -> k < next w) ->
    ((forall k, at_ w m k = None) -> exists w1 w2, gm_CopyFromRaw eqb upd ord None m w = Ok (None, w1) /\ gm_CopyToRaw eqb upd ord m None w = Ok (m, w2) /\
      unchanged (gabs eqb w) (gabs eqb w1) /\ unchanged (gabs eqb w) (gabs eqb w2)) /\
    (~ (forall k, at_ w m k = None) -> gm_CopyFromRaw eqb upd ord None m w = Panic /\ gm_CopyToRaw eqb upd ord m None w = Panic).
  Proof.
    intros Hw Hs. unfold gm_CopyFromRaw, gm_CopyToRaw.
    destruct (gm_step eqb upd ord zero (GCopyFrom None m) w) as [r w'] eqn:Es.
    destruct (gm_step_spec eqb upd E ord ordP zero (GCopyFrom None m) _ _ _ Hw (refs2 w None m ltac:(done) Hs) Es) as [_ Hd].
    destruct (gm_step eqb upd ord zero (GCopyTo m None) w) as [r2 w2] eqn:Es2.
    destruct (gm_step_spec eqb upd E ord ordP zero (GCopyTo m None) _ _ _ Hw (refs2 w m None Hs ltac:(done)) Es2) as [_ Hd2].
    unfold gm_step in Es, Es2. cbn in Es, Es2. unfold mmap, gm_CopyFrom in Es. unfold mmap, gm_CopyTo in Es2. unfold bind at 1 in Es. unfold bind at 1 in Es2.
    split; intros H.
    - inversion Hd; subst; [|done]. inversion Hd2; subst; [|done].
      destruct (bind (maps_Copy eqb upd ord None m) _ w) as [[r' w3]| |] eqn:Eb; [|done..]. injection Es as -> ->.
      destruct (bind (maps_Copy eqb upd ord None m) (fun _ => ret m) w) as [[r' w4]| |] eqn:Eb2; [|done..]. injection Es2 as -> ->. eauto 10.
    - inversion Hd; subst; [done|]. inversion Hd2; subst; [done|].
      destruct (bind (maps_Copy eqb upd ord None m) _ w) as [[r' w3]| |] eqn:Eb; [done| |done].
      destruct (bind (maps_Copy eqb upd ord None m) (fun _ => ret m) w) as [[r' w4]| |] eqn:Eb2; [done| |done]. done.
  Qed.
End properties.

(** Example: {1:10, 2:20} copied over {2:5, 3:30}. *)
Example C130_example :
  match (a <- gm_New ;; b <- gm_New ;; gm_Store Nat.eqb true a 1 10 ;;; gm_Store Nat.eqb true a 2 20 ;;;
         gm_Store Nat.eqb true b 2 5 ;;; gm_Store Nat.eqb true b 3 30 ;;;
         gm_CopyFromRaw Nat.eqb true (fun _ l => l) b a ;;;
         x <- gm_Load Nat.eqb 0 b 1 ;; y <- gm_Load Nat.eqb 0 b 2 ;; z <- gm_Load Nat.eqb 0 b 3 ;; u <- gm_Load Nat.eqb 0 a 3 ;;
         ret [x; y; z; u]) (@w_empty nat nat) with Ok (r, _) => Some r | _ => None end
  = Some [(10, true); (20, true); (30, true); (0, false)].
Proof. vm_compute. reflexivity. Qed.

Print Assumptions C130_CopyFromRaw. Print Assumptions C130_CopyToRaw. Print Assumptions C130_nil.
