(** Property C110: Range of vec with a callback that changes vectors *)
From Coq Require Import ZifyBool ZifyNat.
From Verif Require Import Base VecModel VecSpec VecProofs VecSteps VecHistory VecQuery VecExample VecProperties VecIterSpec VecIter.

Section properties.
  Context {T : Type} (zero : T) (growth : nat -> nat -> nat -> nat).
  Context (auto_equal : option (T -> T -> bool)).
  Context (srt srt_stable : (T -> T -> Z) -> list T -> list T).
  Context (Hsrt : forall f l, srt f l ≡ₚ l) (Hsrt2 : forall f l, srt_stable f l ≡ₚ l).
  Notation W := (vworld T).
  Notation steps := (o_steps zero growth auto_equal srt srt_stable).
  Notation reached := (v_reached zero growth auto_equal srt srt_stable).
  Notation v_callback := (v_callback zero growth auto_equal srt srt_stable).
  Implicit Types (w : W) (v n : nat).

  (** Range returns b', w' exactly if there are turns that say so.  The result is that of a program, so
      everything proved of reachable states holds during and after the loop. *)
  Theorem C110_vec_Range_exact {B} n v (f : Z -> T -> B -> M W (bool * B)) w hs b b' w' :
    v_callback n f -> v < n -> reached (w, hs) -> n <= w_vn w ->
    ((exists fuel, range_loop fuel v f 0 b w = Ok (b', w')) <-> exists ts, turns v f w 0 b ts b' w') /\
    ((exists ts, turns v f w 0 b ts b' w') -> exists os hs', steps (w, hs) os (w', hs')).
  Proof.
    intros Hf Hv Hr Hn. split; [split|].
    - intros [fuel E]. destruct (Range_turns _ _ _ _ _ Hsrt Hsrt2 f n Hf v Hv fuel 0 b w hs b' w' Hr Hn E) as [(ts&Ht&_) _]. eauto.
    - intros [ts Ht]. exists (length ts). by apply (turns_Range _ _ _ _ _ Hsrt Hsrt2 f n Hf v Hv w 0 b ts b' w' Ht hs).
    - intros [ts Ht]. pose proof (turns_Range _ _ _ _ _ Hsrt Hsrt2 f n Hf v Hv w 0 b ts b' w' Ht hs _ Hr Hn (le_n _)) as E.
      by destruct (Range_turns _ _ _ _ _ Hsrt Hsrt2 f n Hf v Hv _ 0 b w hs b' w' Hr Hn E) as [_ ?].
  Qed.
  (** The k-th turn gets index k and the element that is there at that moment. *)
  Theorem C110_vec_Range_indices {B} v (f : Z -> T -> B -> M W (bool * B)) w b ts b' w' : turns v f w 0 b ts b' w' ->
    t_index <$> ts = seq 0 (length ts) /\ forall c, c ∈ ts -> vseq (t_before c) v !! t_index c = Some (t_elem c).
  Proof. apply turns_indices. Qed.
  (** No index goes out of range, whatever the callback removes. *)
  Theorem C110_vec_Range_no_panic {B} n v (f : Z -> T -> B -> M W (bool * B)) fuel b w hs :
    v_callback n f -> v < n -> (forall i x b w hs, reached (w, hs) -> n <= w_vn w -> f i x b w <> Panic) ->
    reached (w, hs) -> n <= w_vn w -> range_loop fuel v f 0 b w <> Panic.
  Proof. intros Hf Hv Hp Hr Hn. by apply (Range_no_panic _ _ _ _ _ Hsrt Hsrt2 f n Hf v Hv Hp fuel 0 b w hs). Qed.
  (** If the callback keeps the vector within some length, Range has no more turns than that. *)
  Theorem C110_vec_Range_ends {B} n v N (f : Z -> T -> B -> M W (bool * B)) b w hs :
    v_callback n f -> v < n -> (forall i x b w hs, reached (w, hs) -> n <= w_vn w -> exists r w', f i x b w = Ok (r, w')) ->
    (forall i x b w hs r w', reached (w, hs) -> n <= w_vn w -> length (vseq w v) <= N -> f i x b w = Ok (r, w') -> length (vseq w' v) <= N) ->
    reached (w, hs) -> n <= w_vn w -> length (vseq w v) <= N ->
    exists ts b' w', turns v f w 0 b ts b' w' /\ length ts <= N.
  Proof.
    intros Hf Hv Hd Hl Hr Hn HN.
    destruct (Range_ends _ _ _ _ _ Hsrt Hsrt2 f n Hf v Hv N Hd Hl N 0 b w hs Hr Hn HN) as (b'&w'&E); [lia|].
    destruct (Range_turns _ _ _ _ _ Hsrt Hsrt2 f n Hf v Hv N 0 b w hs b' w' Hr Hn E) as [(ts&Ht&Hts) _]. eauto.
  Qed.
  (** If each turn leaves what comes after its index as it is (it may change or replace what it was given
      and what came before), the callback gets the elements there were at the start, in order: all of
      them unless it stops the loop. *)
  Theorem C110_vec_Range_complete {B} v (f : Z -> T -> B -> M W (bool * B)) w b ts b' w' : turns v f w 0 b ts b' w' ->
    (forall c, c ∈ ts -> drop (S (t_index c)) (vseq (t_after c) v) = drop (S (t_index c)) (vseq (t_before c) v)) ->
    (t_elem <$> ts) `prefix_of` vseq w v /\ ((forall c, c ∈ ts -> t_more c = true) -> t_elem <$> ts = vseq w v).
  Proof. intros Ht Hc. exact (turns_prefix f v w 0 b ts b' w' Ht Hc). Qed.
  (** False of the code: "a callback that removes each element it is given gets all of them and empties
      the vector".  It gets every other element, and the rest stays, for every vector. *)
  Theorem C110_vec_Range_Remove_refuted v fuel w hs : reached (w, hs) -> v < w_vn w -> length (vseq w v) <= fuel ->
    (exists w', range_loop fuel v (remove_current zero v) 0 [] w = Ok (evens (vseq w v), w') /\ vseq w' v = odds (vseq w v)) /\
    evens (vseq w v) ++ odds (vseq w v) ≡ₚ vseq w v /\ (2 <= length (vseq w v) -> odds (vseq w v) <> []).
  Proof.
    intros Hr Hv Hl. split; [by apply (Range_Remove zero growth auto_equal srt srt_stable Hsrt Hsrt2 v fuel w hs)|]. split; [apply evens_odds|].
    destruct (vseq w v) as [|x [|y l]]; cbn; [lia|lia|done].
  Qed.
  (** False of the code: "Range returns if each call of the callback does".  A callback that appends an
      element in each turn keeps the loop going for ever, for every vector that is not empty. *)
  Theorem C110_vec_Range_Push_refuted v fuel w hs : reached (w, hs) -> v < w_vn w -> vseq w v <> [] ->
    range_loop fuel v (push_current zero growth v) 0 0 w = NoFuel.
  Proof.
    intros Hr Hv Hne. apply (push_loop zero growth auto_equal srt srt_stable Hsrt Hsrt2 v fuel 0 0 w hs Hr Hv). destruct (vseq w v); [done|cbn; lia].
  Qed.
  (** These callbacks, and all that consist of a call on an existing vector, are of the kind asked for. *)
  Theorem C110_vec_Range_callbacks {B} n v : v < n ->
    (forall (c : Z -> T -> B -> v_call T) (g : Z -> T -> B -> v_res T -> bool * B),
       v_callback n (fun i x b => r <- v_exec zero growth auto_equal srt srt_stable v (c i x b) ;; ret (g i x b r))) /\
    v_callback n (remove_current zero v) /\ v_callback n (push_current zero growth v).
  Proof. intros Hv. split; [intros c g; by apply callback_call|]. split; [by apply remove_callback|by apply push_callback]. Qed.
End properties.
Print Assumptions C110_vec_Range_exact. Print Assumptions C110_vec_Range_indices. Print Assumptions C110_vec_Range_no_panic.
Print Assumptions C110_vec_Range_ends. Print Assumptions C110_vec_Range_complete. Print Assumptions C110_vec_Range_Remove_refuted.
Print Assumptions C110_vec_Range_Push_refuted. Print Assumptions C110_vec_Range_callbacks.

Local Open Scope Z_scope.
(** A vector of 1 to 6. *)
Definition on_six {A} (f : nat -> vworld Z -> A) : option A :=
  option_map (fun st => f 0%nat (fst st)) (run_ops 0 (fun _ _ n => n) None isort isort (empty_vworld, []) six).
Definition got {B} (r : res (B * vworld Z)) : option (B * list Z) :=
  match r with Ok (b, w) => Some (b, vseq w 0) | _ => None end.
Example C110_example_remove : on_six (fun v w => got (range_loop 9 v (remove_current 0 v) 0 [] w)) = Some (Some ([1; 3; 5], [2; 4; 6])).
Proof. vm_compute. reflexivity. Qed.
(** Each element is replaced by its double; the loop stops at 4; all elements go in the first turn. *)
Example C110_example_set : on_six (fun v w => got (range_loop 9 v (fun i x b => Set_ v i (2 * x) ;;; ret (true, b ++ [x])) 0 [] w))
  = Some (Some ([1; 2; 3; 4; 5; 6], [2; 4; 6; 8; 10; 12])).
Proof. vm_compute. reflexivity. Qed.
Example C110_example_stop : on_six (fun v w => got (range_loop 9 v (fun i x b => Set_ v i 0 ;;; ret (x <? 4, b ++ [x])) 0 [] w))
  = Some (Some ([1; 2; 3; 4], [0; 0; 0; 0; 5; 6])).
Proof. vm_compute. reflexivity. Qed.
Example C110_example_clear : on_six (fun v w => got (range_loop 9 v (fun i x b => Clear v ;;; ret (true, b ++ [x])) 0 [] w))
  = Some (Some ([1], [])).
Proof. vm_compute. reflexivity. Qed.
(** Something is inserted in front: the same element comes again. *)
Example C110_example_insert :
  on_six (fun v w => got (range_loop 9 v (fun i x b => (if x <? 3 then Insert 0 (fun _ _ n => n) v 0 [7] ;;; ret tt else ret tt) ;;; ret (i <? 3, b ++ [x])) 0 [] w))
  = Some (Some ([1; 1; 1; 1], [7; 7; 7; 7; 1; 2; 3; 4; 5; 6])).
Proof. vm_compute. reflexivity. Qed.
