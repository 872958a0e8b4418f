(** rwmap: the values the map keeps are the values in it. *)
From Verif Require Import Base RwMapModel RwMapSpec RwMapInv RwMapMoves RwMapMoves2 RwMapStep RwMapStep2 RwMapStep3 RwMapLin RwMapLen RwMapMemSpec.

Section mem.
Context {K : Type} `{Countable K} {V : Type}.
Context (deref : nat -> V) (zero : V) (veq : V -> V -> option bool).

Lemma kept_emap ph (s : shared K) kof k e p : sinv ph s kof -> ph <> Cleared ->
  s_rd s !! k = Some e \/ dirty_map s !! k = Some e -> s_ent s e = SPtr p -> emap s !! k = Some e.
Proof.
  intros (_ & _ & Hs) Hph He Hp. unfold emap. destruct ph as [|todo|]; [| |done].
  - destruct (s_am s) eqn:Ea.
    + destruct Hs as (d & Hd & Hrd & _). unfold dirty_map in *. rewrite Hd in *.
      destruct He as [He|He]; [by apply lookup_union_Some_l|].
      destruct (s_rd s !! k) as [e'|] eqn:Hk; [|by rewrite lookup_union_r].
      destruct (Hrd k e' Hk) as [[_ ?]|[_ ?]]; [congruence|]. apply lookup_union_Some_l. congruence.
    + destruct He as [He|He]; [done|]. destruct Hs as [[Hd|[Hd _]] _]; unfold dirty_map in He; rewrite Hd in He; by rewrite lookup_empty in He.
  - destruct Hs as (Ea & d & Hd & _ & Hdr & _). rewrite Ea. destruct He as [He|He]; [done|].
    unfold dirty_map in He. rewrite Hd in He. by apply Hdr.
Qed.

Lemma kept_values acts (cf : config K V) tr k p : Inhabited K ->
  run deref zero veq new_config acts = Some (cf, tr) -> no_half_clear cf ->
  keeps_value (c_sh cf) k p -> contents deref (c_sh cf) !! k = Some (deref p).
Proof.
  intros Hinh Hr Hn (e & He & Hp). eapply run_good in Hr as (h & kof & m & Hc & _); [|by apply new_good].
  rewrite contents_lookup. rewrite (kept_emap _ _ _ _ _ _ (i_s _ _ _ _ _ _ _ Hc)) with (2 := He) (3 := Hp).
  - cbn. by rewrite Hp.
  - unfold the_phase. destruct (s_lock (c_sh cf)) as [t|]; [|done].
    destruct (c_thr cf !! t) as [[c q]|] eqn:Ht; [|done]. intros Hq. apply (Hn t c). rewrite Ht. by destruct q.
Qed.

Lemma kept_values_back acts (cf : config K V) tr k v :
  run deref zero veq new_config acts = Some (cf, tr) -> contents deref (c_sh cf) !! k = Some v ->
  exists p, keeps_value (c_sh cf) k p /\ deref p = v.
Proof.
  intros Hr. rewrite contents_lookup. destruct (emap (c_sh cf) !! k) as [e|] eqn:He; [|done]. cbn.
  destruct (s_ent (c_sh cf) e) as [| |p] eqn:Hp; try done. intros [= <-]. exists p. split; [|done]. exists e. split; [|done].
  unfold emap in He. destruct (s_am _); [|by left]. apply lookup_union_Some_raw in He as [?|[_ ?]]; [by left|by right].
Qed.
End mem.
