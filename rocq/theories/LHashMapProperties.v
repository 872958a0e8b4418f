(** Property theorems for lhashmap (C24, C25, C79). *)
From Verif Require Import Base GoMap GoMapSpec DllistModel DllistSpec LHashMapModel LHashMapSpec LHashMapProofs.

(** [lh_history ... h w]: w is the map after New and the calls of h, with the answers in h.
    [labs w]: the entries in the order of the list.
    [per eqb]: the keys' [==] is symmetric and transitive; NaN keys are allowed. *)

(** C24 *)
Theorem C24_lhashmap_history :
  forall (K V : Type) (eqb : K -> K -> bool) (upd : bool) (zero_k : K) (zero : V), per eqb -> forall h w,
  lh_history eqb upd zero_k zero h w ->
  lh_behaves eqb zero [] h (labs zero_k zero w) /\ one_each eqb (labs zero_k zero w).
Proof. exact @lh_history_spec. Qed.
Print Assumptions C24_lhashmap_history.
Theorem C24_lhashmap_no_panic_and_ends :
  forall (K V : Type) (eqb : K -> K -> bool) (upd : bool) (zero_k : K) (zero : V), per eqb -> forall w c,
  lh_reached eqb upd zero_k zero w ->
  exists r w', lh_exec eqb upd zero c w = Ok (r, w') /\
    lh_does eqb zero (labs zero_k zero w) (labs zero_k zero w') c r /\ lh_reached eqb upd zero_k zero w'.
Proof. exact @lh_total_spec. Qed.
Print Assumptions C24_lhashmap_no_panic_and_ends.
(** Load, directly from the calls made before: the last Store not undone by Remove or Clear. *)
Theorem C24_lhashmap_Load_last :
  forall (K V : Type) (eqb : K -> K -> bool) (upd : bool) (zero_k : K) (zero : V), per eqb -> forall h w k,
  lh_history eqb upd zero_k zero h w ->
  exists w', lh_Load eqb zero k w =
    Ok (match last_stored eqb k None h with Some v => (v, true) | None => (zero, false) end, w').
Proof. exact @load_last_spec. Qed.
Print Assumptions C24_lhashmap_Load_last.
Definition ex_cs : list (lh_call nat nat) :=
  [LStore 1 10; LStore 2 20; LStore 3 30; LLoad 1; LStore 2 21; LRemove 3; LStore 4 40; LRemove 9; LLoad 9].
Example C24_example : per Nat.eqb /\
  (lh_run Nat.eqb false 0 0
    [LStore 1 10; LStore 2 20; LStore 3 30; LRange (fun _ _ => true); LLoad 1; LRange (fun _ _ => true); LStore 2 21;
     LRange (fun k _ => Nat.eqb k 2); LRemove 3; LLoad 3; LLen; LStore 4 40; LRange (fun _ _ => true); LClear; LLen; LLoad 4])
  ≫= (fun x => Some (fst x)) =
  Some [LUnit; LUnit; LUnit; LSeen [(3, 30); (2, 20); (1, 10)]; LVal 10 true; LSeen [(1, 10); (3, 30); (2, 20)]; LUnit;
        LSeen [(2, 21); (1, 10)]; LUnit; LVal 0 false; LInt 2; LUnit; LSeen [(4, 40); (2, 21); (1, 10)]; LUnit; LInt 0; LVal 0 false].
Proof.
  split; [|vm_compute; reflexivity].
  split; intros *; rewrite ?Nat.eqb_eq; congruence.
Qed.

(** C25 is false of the code: in every reached state with two entries or more, a callback that
    loads the key it is called with makes Range run forever. *)
Theorem C25_lhashmap_Range_Load_refuted :
  forall (K V : Type) (eqb : K -> K -> bool) (upd : bool) (zero_k : K) (zero : V), per eqb ->
  forall (A : Type) w x y t (a : A),
  lh_reached eqb upd zero_k zero w -> labs zero_k zero w = x :: y :: t ->
  eqb x.1 x.1 = true -> eqb y.1 y.1 = true ->
  forall fuel, lh_Range fuel (fun k _ a => lh_Load eqb zero k ;;; ret (true, a)) a w = NoFuel.
Proof. exact @loading_spec. Qed.
Print Assumptions C25_lhashmap_Range_Load_refuted.
(** It ends, and visits each entry in order until told to stop, for every callback that keeps
    the elements in their order (and ends itself). *)
Theorem C25_lhashmap_Range_exact :
  forall (K V : Type) (eqb : K -> K -> bool) (upd : bool) (zero_k : K) (zero : V), per eqb ->
  forall (A : Type) w (f : K -> V -> A -> M (lhm K V) (bool * A)) a fuel,
  lh_reached eqb upd zero_k zero w ->
  (forall x a r w1 w2, lh_reached eqb upd zero_k zero w1 -> lh_ids w1 = lh_ids w ->
     labs zero_k zero w1 = labs zero_k zero w -> x ∈ labs zero_k zero w -> f x.1 x.2 a w1 = Ok (r, w2) ->
     lh_reached eqb upd zero_k zero w2 /\ lh_ids w2 = lh_ids w /\ labs zero_k zero w2 = labs zero_k zero w) ->
  length (labs zero_k zero w) < fuel ->
  lh_Range fuel f a w = lh_fold f a (labs zero_k zero w) w.
Proof. exact @lrange_spec. Qed.
Print Assumptions C25_lhashmap_Range_exact.
Lemma run_reached {K V} (eqb : K -> K -> bool) upd (zero_k : K) (zero : V) cs rs w :
  lh_run eqb upd zero_k zero cs = Some (rs, w) -> lh_reached eqb upd zero_k zero w.
Proof.
  unfold lh_run. destruct (lh_New zero_k zero) as [[[] w0]| |] eqn:E; [|done..]. intros H.
  exists (zip cs rs), w0. split; [done|]. clear E. revert w0 rs H. induction cs as [|c cs IH]; intros w0 rs H; cbn in H.
  - injection H as <- <-. constructor.
  - destruct (lh_exec eqb upd zero c w0) as [[r w1]| |] eqn:E; [|done..].
    destruct (lh_runs eqb upd zero cs w1) as [[rs' w2]|] eqn:E2; [|done]. injection H as <- <-. econstructor; [done|by apply IH].
Qed.
Lemma run_reached_with {K V} (eqb : K -> K -> bool) upd (zero_k : K) (zero : V) cs s :
  match lh_run eqb upd zero_k zero cs with Some (_, w) => labs zero_k zero w = s | None => False end ->
  match lh_run eqb upd zero_k zero cs with
  | Some (_, w) => lh_reached eqb upd zero_k zero w /\ labs zero_k zero w = s
  | None => False end.
Proof.
  destruct (lh_run eqb upd zero_k zero cs) as [[rs w]|] eqn:E; [|done]. intros H. split; [by eapply run_reached|done].
Qed.
Example C25_example :
  match lh_run Nat.eqb false 0 0 ex_cs with
  | Some (_, w) => lh_reached Nat.eqb false 0 0 w /\ labs 0 0 w = [(4, 40); (2, 21); (1, 10)]
  | None => False end.
Proof. apply run_reached_with. vm_compute. reflexivity. Qed.

(** C79 is false of the code: with a callback that removes the key it is given, Range stops
    after the first entry, even though the callback asks to go on. *)
Theorem C79_lhashmap_Range_Remove_refuted :
  forall (K V : Type) (eqb : K -> K -> bool) (upd : bool) (zero_k : K) (zero : V), per eqb ->
  forall w x t f fuel,
  lh_reached eqb upd zero_k zero w -> labs zero_k zero w = x :: t -> eqb x.1 x.1 = true ->
  exists w', lh_Range (S (S fuel)) (fun k v a => lh_Remove eqb k ;;; note f k v a) [] w = Ok ([x], w') /\
    labs zero_k zero w' = t.
Proof. exact @removing_spec. Qed.
Print Assumptions C79_lhashmap_Range_Remove_refuted.
Example C79_example :
  match lh_run Nat.eqb false 0 0 ex_cs with
  | Some (_, w) => match lh_Range 9 (fun k v a => lh_Remove Nat.eqb k ;;; note (fun _ _ => true) k v a) [] w with
                   | Ok (l, w') => l = [(4, 40)] /\ labs 0 0 w' = [(2, 21); (1, 10)]
                   | _ => False end
  | None => False end.
Proof. vm_compute. done. Qed.
