(** rwmap: C195. *)
From Coq Require Import ZifyBool ZifyNat.
From Verif Require Import Base RwMapModel RwMapSpec RwMapLen RwMapSeq RwMapLenGenSpec RwMapLenGen RwMapProperties.

(** ** C195 *)
(** In every execution, also if calls overlap a Clear, the counter is off by at most one for every call
    in progress that may add or remove a key, and one for every such call that was in progress when a
    Clear set the counter to 0 for the last time.  (No goroutine is just between the two parts of Clear,
    when the pairs are gone and the counter has its old value.) *)
Theorem C195_len_off_everywhere {K} `{Countable K} {V} (deref : nat -> V) (zero : V) veq acts (cf : config K V) tr :
  Inhabited K -> run deref zero veq new_config acts = Some (cf, tr) ->
  (forall t c, c_thr cf !! t <> Some (c, P_clr2)) ->
  (Z.abs (s_len (c_sh cf) - Z.of_nat (size (contents deref (c_sh cf)))) <=
   Z.of_nat (changing_now (c_thr cf)) + Z.of_nat (at_last_clear deref zero veq new_config acts 0))%Z.
Proof. apply run_len_gen. Qed.
Print Assumptions C195_len_off_everywhere.

(** So when no call is in progress, what Len returns is off by at most the number of calls that were in
    progress when the counter was set to 0 for the last time.  If there was none (whatever other calls,
    such as Load or Range, overlapped the Clear, and whatever overlapped earlier ones), Len is right. *)
Theorem C195_len_at_rest {K} `{Countable K} {V} (deref : nat -> V) (zero : V) veq acts (cf : config K V) tr :
  Inhabited K -> run deref zero veq new_config acts = Some (cf, tr) -> c_thr cf = ∅ ->
  forall acts' cf' t r tr', run deref zero veq cf acts' = Some (cf', EInv t CLen :: ERet t r :: tr') ->
    exists n, r = RInt n /\
      (Z.abs (n - Z.of_nat (size (contents deref (c_sh cf)))) <=
       Z.of_nat (at_last_clear deref zero veq new_config acts 0))%Z /\
      (at_last_clear deref zero veq new_config acts 0 = 0 ->
       n = Z.of_nat (size (contents deref (c_sh cf)))).
Proof.
  intros HK Hr Hthr acts' cf' t r tr' Hr'. apply len_call in Hr'; [|done].
  exists (s_len (c_sh cf)). split; [done|].
  pose proof (run_len_gen deref zero veq _ _ _ HK Hr) as Hg. rewrite Hthr in Hg.
  assert (Hc : changing_now (∅ : gmap nat (call K V * pc K V)) = 0).
  { unfold changing_now. by rewrite map_to_list_empty. }
  rewrite Hc in Hg.
  assert (Hx : (Z.abs (s_len (c_sh cf) - Z.of_nat (size (contents deref (c_sh cf)))) <=
    Z.of_nat (at_last_clear deref zero veq new_config acts 0))%Z).
  { assert (Hn : forall t c, (∅ : gmap nat (call K V * pc K V)) !! t <> Some (c, P_clr2)).
    { intros u c Hu. by rewrite lookup_empty in Hu. }
    specialize (Hg Hn). lia. }
  split; [done|]. lia.
Qed.
Print Assumptions C195_len_at_rest.

(** The bound is reached.  Three Stores have put their pairs into the map but have not counted them; a
    Clear runs to its end; the Stores count.  The map is empty, no call is in progress, Len returns 3. *)
Definition ex195 : list (action nat nat) :=
  AInv 1 (CStore 5 50) :: ticks 1 8 ++ AInv 2 (CStore 6 60) :: ticks 2 6 ++
  AInv 3 (CStore 7 70) :: ticks 3 6 ++ calls_ 4 CClear ++ ticks 1 5 ++ ticks 2 5 ++ ticks 3 5.
Example C195_ex : exists cf tr, ex_run (play new_config ex195) = Some (cf, tr) /\ c_thr cf = ∅ /\
  contents ex_deref (c_sh cf) = ∅ /\ s_len (c_sh cf) = 3%Z /\
  at_last_clear ex_deref 0 ex_veq new_config (play new_config ex195) 0 = 3.
Proof.
  assert (H : match ex_run (play new_config ex195) with
    | Some (cf, tr) => map_to_list (c_thr cf) = [] /\ map_to_list (contents ex_deref (c_sh cf)) = [] /\
        s_len (c_sh cf) = 3%Z /\ at_last_clear ex_deref 0 ex_veq new_config (play new_config ex195) 0 = 3
    | None => False end) by (vm_compute; repeat split; reflexivity).
  destruct (ex_run (play new_config ex195)) as [[cf tr]|]; [|done].
  exists cf, tr. destruct H as (H1 & H2 & H3 & H4).
  split; [done|]. split; [by apply map_to_list_empty_iff|]. split; [by apply map_to_list_empty_iff|]. exact (conj H3 H4).
Qed.

(** A second Clear, which only a Load overlaps, sets the counter right again. *)
Definition ex195b : list (action nat nat) :=
  ex195 ++ AInv 1 (CStore 8 80) :: ticks 1 20 ++ AInv 2 (CLoad 8) :: ticks 2 1 ++ calls_ 4 CClear ++
  ticks 2 20 ++ calls_ 1 (CStore 5 51).
Example C195_ex_again : exists cf tr, ex_run (play new_config ex195b) = Some (cf, tr) /\ c_thr cf = ∅ /\
  s_len (c_sh cf) = 1%Z /\ size (contents ex_deref (c_sh cf)) = 1 /\
  at_last_clear ex_deref 0 ex_veq new_config (play new_config ex195b) 0 = 0.
Proof.
  assert (H : match ex_run (play new_config ex195b) with
    | Some (cf, tr) => map_to_list (c_thr cf) = [] /\ s_len (c_sh cf) = 1%Z /\
        size (contents ex_deref (c_sh cf)) = 1 /\
        at_last_clear ex_deref 0 ex_veq new_config (play new_config ex195b) 0 = 0
    | None => False end) by (vm_compute; repeat split; reflexivity).
  destruct (ex_run (play new_config ex195b)) as [[cf tr]|]; [|done].
  exists cf, tr. destruct H as (H1 & H2 & H3 & H4).
  split; [done|]. split; [by apply map_to_list_empty_iff|]. exact (conj H2 (conj H3 H4)).
Qed.
