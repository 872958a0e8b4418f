(** rwmap: keys that are not used any more (C196, C197). *)
From Verif Require Import Base RwMapModel RwMapSpec RwMapProperties RwMapMemSpec RwMapLetGoSpec RwMapLetGo RwMapLeak.

(** ** C196 *)
(** A key that is not in the map and is not stored again is in neither of the two Go maps once [dirty]
    was promoted (or the map was cleared) twice. *)
Theorem C196_let_go_after_two_promotions :
  forall (K : Type) (EqK : EqDecision K) (CountK : Countable K) (V : Type) (deref : nat -> V) (zero : V)
    (veq : V -> V -> option bool) acts0 acts (cf0 cf : config K V) tr0 tr k,
  Inhabited K ->
  run deref zero veq new_config acts0 = Some (cf0, tr0) -> contents deref (c_sh cf0) !! k = None ->
  (forall t c p, c_thr cf0 !! t = Some (c, p) -> ~ stores_key k c) ->
  run deref zero veq cf0 acts = Some (cf, tr) -> (forall t c, EInv t c ∈ tr -> ~ stores_key k c) ->
  2 <= promotions deref zero veq cf0 acts -> no_half_clear cf -> ~ keeps_key (c_sh cf) k.
Proof. intros. by eapply let_go. Qed.
Print Assumptions C196_let_go_after_two_promotions.

(** Key 5 is deleted while it is only in [dirty].  It is still there after a Range, which promotes
    [dirty]; it is gone after another key was stored and a Range promoted [dirty] again, although a
    CompareAndSwap of key 5 is under way. *)
Definition range_6 : list (action nat nat) :=
  AInv 1 CRange :: ticks 1 10 ++ [AStep 1 (LKey 6)] ++ ticks 1 1 ++ [AStep 1 (LCb false)] ++ ticks 1 1.
Definition ex196_before : list (action nat nat) :=
  calls_ 1 (CStore 5 50) ++ calls_ 1 (CStore 6 60) ++ calls_ 1 (CCad 5 50).
Definition ex196_cf : config nat nat := default new_config (fst <$> ex_run (play new_config ex196_before)).
Definition ex196_once : list (action nat nat) := play ex196_cf (AInv 2 (CCas 5 50 51) :: range_6).
Definition ex196_twice : list (action nat nat) :=
  play ex196_cf (AInv 2 (CCas 5 50 51) :: range_6 ++ calls_ 1 (CStore 7 70) ++ range_6).
Definition see196 (acts : list (action nat nat)) :=
  (fun x => (map_to_list (s_rd (c_sh x.1)), map_to_list (dirty_map (c_sh x.1)), map_to_list (c_thr x.1))) <$>
    run ex_deref 0 ex_veq ex196_cf acts.
Example ex196_kept_after_one :
  map_to_list (contents ex_deref (c_sh ex196_cf)) = [(6, 60)] /\
  see196 ex196_once = Some ([(5, 0); (6, 1)], [], [(2, (CCas 5 50 51, P_read))]) /\
  promotions ex_deref 0 ex_veq ex196_cf ex196_once = 1.
Proof. vm_compute. repeat split; reflexivity. Qed.
Example ex196_gone_after_two :
  see196 ex196_twice = Some ([(7, 2); (6, 1)], [], [(2, (CCas 5 50 51, P_read))]) /\
  promotions ex_deref 0 ex_veq ex196_cf ex196_twice = 2.
Proof. vm_compute. repeat split; reflexivity. Qed.

(** ** C197 *)
(** However large [n] is: with at most two keys in the map at any time, and only finished calls, the map
    comes to hold [n + 1] keys. *)
Theorem C197_bounded_memory_refuted :
  forall n, exists acts (cf : config nat nat),
  run ex_deref 0 ex_veq new_config acts = Some (cf, churn n) /\ c_thr cf = ∅ /\
  contents ex_deref (c_sh cf) = {[0 := 50]} /\ forall k, k <= n -> keeps_key (c_sh cf) k.
Proof. intros n. by apply leak. Qed.
Print Assumptions C197_bounded_memory_refuted.

Example ex197_churn :
  churn 2 = [EInv 1 (CStore 0 50); ERet 1 RUnit;
    EInv 1 (CStore 1 50); ERet 1 RUnit; EInv 1 (CCad 1 50); ERet 1 (RBool true);
    EInv 1 (CStore 2 50); ERet 1 RUnit; EInv 1 (CCad 2 50); ERet 1 (RBool true)].
Proof. reflexivity. Qed.
