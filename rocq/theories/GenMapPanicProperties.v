(** GenMap and set with callbacks that panic: C211, C212. *)
From Verif Require Import Base GoMap GenMapModel GenMapPanicModel GenMapPanicSpec GenMapPanic.

Section properties.
Context {K V : Type} (eqb : K -> K -> bool) (upd : bool) (ord : nat -> list (K * V) -> list (K * V)) (zero : V).

(** ** C211 *)
(** DeleteFunc asks about the entries one after the other in the order of the iteration. If the
    function panics, exactly those asked about before and answered true are gone. *)
Theorem C211_DeleteFunc m del w o w' :
  go_eq eqb -> (forall i l, ord i l ≡ₚ l) -> distinct eqb (content w m) ->
  p_DeleteFunc eqb ord m del w = (o, w') ->
  exists seen rest, ord (its w) (content w m) = seen ++ rest /\
    (forall k v, (k, v) ∈ seen -> del k v <> None) /\
    (o = Some tt -> rest = []) /\
    (o = None -> exists k v rest', rest = (k, v) :: rest' /\ del k v = None) /\
    content w' m ≡ₚ stay eqb del seen ++ rest /\ only_changes m w w'.
Proof.
  intros HE Ho Hd Hr. apply (deletefunc eqb HE ord Ho) in Hr as (seen & rest & H1 & H2 & H3 & H4 & H5); [|by apply dk_distinct].
  exists seen, rest. split; [done|]. split; [intros k v Hin; exact (H2 _ Hin)|].
  split; [by intros ->|]. split; [|done]. intros ->. destruct H3 as ([k v] & rest' & -> & Hn). by exists k, v, rest'.
Qed.

(** It panics exactly if the function panics at some entry of the map. *)
Theorem C211_panics m del w o w' :
  go_eq eqb -> (forall i l, ord i l ≡ₚ l) -> distinct eqb (content w m) ->
  p_DeleteFunc eqb ord m del w = (o, w') ->
  o = None <-> exists k v, (k, v) ∈ content w m /\ del k v = None.
Proof.
  intros HE Ho Hd Hr. apply C211_DeleteFunc in Hr as (seen & rest & H1 & H2 & H3 & H4 & _); [|done..].
  setoid_rewrite <- (Ho (its w)). rewrite H1. split.
  - intros Hn. destruct (H4 Hn) as (k & v & rest' & -> & Hk). exists k, v. split; [set_solver|done].
  - intros (k & v & Hin & Hk). destruct o as [[]|]; [|done]. rewrite (H3 eq_refl), app_nil_r in Hin.
    by destruct (H2 k v Hin).
Qed.

(** Calling DeleteFunc again, with a function that gives the answers it gave and does not panic, leaves
    what one call of it would have left. *)
Theorem C211_again m del del' w w1 o w2 :
  go_eq eqb -> (forall i l, ord i l ≡ₚ l) -> distinct eqb (content w m) ->
  (forall k v b, del k v = Some b -> del' k v = Some b) ->
  (forall k v, (k, v) ∈ content w m -> del' k v <> None) ->
  p_DeleteFunc eqb ord m del w = (None, w1) -> p_DeleteFunc eqb ord m del' w1 = (o, w2) ->
  o = Some tt /\ content w2 m ≡ₚ stay eqb del' (content w m) /\ only_changes m w w2.
Proof. intros HE Ho Hd. apply again; auto. by apply dk_distinct. Qed.

(** ** C212 *)
(** A Range whose callback panics leaves the maps as one whose callback returns false there. *)
Theorem C212_Range {S} m (f : K -> V -> S -> P (bool * S)) s w o w' :
  p_Range ord m f s w = (o, w') ->
  exists r, p_Range ord m (to_false f) s w = (Some r, w') /\
    (o = Some r \/ (o = None /\ r.1 = false)).
Proof. intros Hr. apply range_false in Hr as (r & H1 & H2). exists r. split; [done|]. destruct o; [left; congruence|by right]. Qed.

(** LoadOrStoreFunc does not call the function if the key is there; if the function panics, nothing is
    stored: the maps are as the function left them. *)
Theorem C212_LoadOrStoreFunc n k nf w o w' :
  let m := Some n in
  p_LoadOrStoreFunc eqb upd zero m k nf w = (o, w') ->
  (forall v, mlookup eqb (content w m) k = Some v -> o = Some (v, true) /\ w' = w) /\
  (mlookup eqb (content w m) k = None ->
     (forall w1, nf w = (None, w1) -> o = None /\ w' = w1) /\
     (forall v w1, nf w = (Some v, w1) ->
        o = Some (v, false) /\ content w' m = mset eqb upd (content w1 m) k v /\ only_changes m w1 w')).
Proof.
  intros m Hr. apply los in Hr. split.
  - intros v Hv. by rewrite Hv in Hr.
  - intros Hv. rewrite Hv in Hr. split; [intros w1 Hn|intros v w1 Hn]; by rewrite Hn in Hr.
Qed.
(** On a nil map the function is called, and then the assignment panics. *)
Theorem C212_nil k nf w :
  p_LoadOrStoreFunc eqb upd zero None k nf w = (None, (nf w).2).
Proof.
  destruct (p_LoadOrStoreFunc eqb upd zero None k nf w) as [o w'] eqn:Hr. apply los in Hr. simpl in Hr.
  destruct (nf w) as [[v|] w1]; simpl; destruct Hr as [-> ->]; done.
Qed.

(** EqualFunc changes nothing; it returns true only if it has asked about all values, and panics only if
    the maps have the same size and the function panics at two values of the same key. *)
Theorem C212_EqualFunc m m2 eq w o w' :
  (forall i l, ord i l ≡ₚ l) -> p_EqualFunc eqb ord m m2 eq w = (o, w') ->
  same_maps w w' /\
  (o = Some true -> length (content w m) = length (content w m2) /\
     forall k v, (k, v) ∈ content w m -> exists v2, mlookup eqb (content w m2) k = Some v2 /\ eq v v2 = Some true) /\
  (o = Some false -> length (content w m) <> length (content w m2) \/ exists k v, (k, v) ∈ content w m /\
     (mlookup eqb (content w m2) k = None \/ exists v2, mlookup eqb (content w m2) k = Some v2 /\ eq v v2 = Some false)) /\
  (o = None -> length (content w m) = length (content w m2) /\
     exists k v v2, (k, v) ∈ content w m /\ mlookup eqb (content w m2) k = Some v2 /\ eq v v2 = None).
Proof.
  intros Ho Hr. apply equalfunc in Hr as [H1 H2]; [|done]. split; [done|].
  split; [|split]; intros ->.
  - destruct H2 as [H2 H3]. split; [done|]. intros k v Hin. exact (H3 (k, v) Hin).
  - destruct H2 as [H2|([k v] & H2)]; [by left|right; by exists k, v].
  - destruct H2 as (H2 & [k v] & v2 & H3). split; [done|]. by exists k, v, v2.
Qed.

(** Where the callbacks do not panic these are the functions of GenMapModel.v. *)
Theorem C212_no_panic m m2 k w :
  (forall del, exists w', gm_DeleteFunc eqb ord m del w = Ok (tt, w') /\
     p_DeleteFunc eqb ord m (fun k v => Some (del k v)) w = (Some tt, w')) /\
  (forall eq, exists b w', gm_EqualFunc eqb ord m m2 eq w = Ok (b, w') /\
     p_EqualFunc eqb ord m m2 (fun a b => Some (eq a b)) w = (Some b, w')) /\
  (forall (S : Type) (f : K -> V -> S -> M (world K V) (bool * S)) s,
     (forall k v s w, exists r w', f k v s w = Ok (r, w')) ->
     exists r w', gm_Range ord m f s w = Ok (r, w') /\ p_Range ord m (fun k v s => op (f k v s)) s w = (Some r, w')) /\
  (forall nf r w', (forall w, exists v w', nf w = Ok (v, w')) -> gm_LoadOrStoreFunc eqb upd zero m k nf w = Ok (r, w') ->
     p_LoadOrStoreFunc eqb upd zero m k (op nf) w = (Some r, w')).
Proof.
  split; [intros del; apply agree_delete|]. split; [intros eq; apply agree_equal|].
  split; [intros S f s Hf; by apply agree_range|].
  intros nf r w' Hn Hr. rewrite agree_los by done. by rewrite Hr.
Qed.
End properties.
Print Assumptions C211_DeleteFunc.
Print Assumptions C211_panics.
Print Assumptions C211_again.
Print Assumptions C212_Range.
Print Assumptions C212_LoadOrStoreFunc.
Print Assumptions C212_nil.
Print Assumptions C212_EqualFunc.
Print Assumptions C212_no_panic.

(** Keys are numbers or (0) NaN; the iteration goes backwards. Key 3 is asked about and goes, NaN is asked
    about and stays, at key 2 the function panics, key 1 is not asked about. *)
Definition ex_eq (x y : nat) : bool := Nat.eqb x y && negb (Nat.eqb x 0).
Definition ex_w : world nat nat := World {[ 0 := [(1, 10); (2, 20); (0, 5); (3, 30)] ]} 1 0.
Definition ex_del (k _ : nat) : option bool := if Nat.eqb k 2 then None else Some true.
Example C211_ex : go_eq ex_eq /\ (forall (i : nat) (l : list (nat * nat)), rev l ≡ₚ l) /\ distinct ex_eq (content ex_w (Some 0)).
Proof.
  split; [|split].
  - unfold ex_eq. split.
    + intros x y [H1 H2]%andb_prop. apply Nat.eqb_eq in H1 as ->. by rewrite Nat.eqb_refl, H2.
    + intros x y z [H1 H2]%andb_prop [H3 H4]%andb_prop. apply Nat.eqb_eq in H1 as ->. by rewrite H3, H2.
  - intros _ l. symmetry. apply Permutation_rev.
  - intros i j x y Hi Hj He. vm_compute in Hi, Hj.
    do 4 (destruct i as [|i]; [injection Hi as <-; do 4 (destruct j as [|j]; [injection Hj as <-; by vm_compute in He|]); done|]). done.
Qed.
Example C211_ex_run : (fun r => (r.1, content r.2 (Some 0))) (p_DeleteFunc ex_eq (fun _ l => rev l) (Some 0) ex_del ex_w) =
  (None, [(1, 10); (2, 20); (0, 5)]).
Proof. vm_compute. reflexivity. Qed.
(** Called again without panicking: NaN stays. *)
Example C211_ex_again : (fun r => (r.1, content r.2 (Some 0)))
  (p_DeleteFunc ex_eq (fun _ l => rev l) (Some 0) (fun _ _ => Some true)
     (p_DeleteFunc ex_eq (fun _ l => rev l) (Some 0) ex_del ex_w).2) = (Some tt, [(0, 5)]).
Proof. vm_compute. reflexivity. Qed.
(** A callback of Range that deletes key 1 and then panics. *)
Example C212_ex : (fun r => (r.1, content r.2 (Some 0)))
  (p_Range (fun _ l => rev l) (Some 0)
     (fun k v s => if Nat.eqb k 0 then pbind (op (go_delete ex_eq (Some 0) 1)) (fun _ w => (None, w)) else pret (true, s ++ [k])) [] ex_w) =
  (None, [(2, 20); (0, 5); (3, 30)]).
Proof. vm_compute. reflexivity. Qed.
(** newFunc stores another key and panics; key 7 is not stored. *)
Example C212_ex_new : (fun r => (r.1, content r.2 (Some 0)))
  (p_LoadOrStoreFunc ex_eq true 0 (Some 0) 7 (pbind (op (go_set ex_eq true (Some 0) 8 80)) (fun _ w => (None, w))) ex_w) =
  (None, [(1, 10); (2, 20); (0, 5); (3, 30); (8, 80)]).
Proof. vm_compute. reflexivity. Qed.
