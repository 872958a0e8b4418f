(** Property theorems for Lhashmaps that New did not make (C218). *)
From Verif Require Import Base GoMap DllistModel DllistNilModel DllistNilSpec DllistNil DllistNilProperties LHashMapModel.
From Verif Require Import LHashMapZeroModel LHashMapZeroSpec.

Section agree.
  Context {K V : Type}.
  Notation W := (lhm K V).

  Lemma lagree_bind {A B} (m : M W A) (n : ZM A) (f : A -> M W B) (g : A -> ZM B) :
    lagree m n -> (forall a, lagree (f a) (g a)) -> lagree (bind m f) (zbind n g).
  Proof.
    intros Hm Hf w. specialize (Hm w). unfold bind, zbind. destruct (m w) as [[a w1]| |].
    - rewrite Hm. apply Hf.
    - destruct (n (made w)) as [o z]; cbn in Hm; subst o. done.
    - destruct (n (made w)) as [o z]; cbn in Hm; subst o. done.
  Qed.
  Lemma lagree_ret {A} (a : A) : lagree (K := K) (V := V) (ret a) (zret a).
  Proof. by intros w. Qed.
  Lemma lagree_ld {A} (m : M (dworld (option nat)) A) n : agree m n -> lagree (K := K) (V := V) (ld m) (zd n).
  Proof.
    intros Hm w. specialize (Hm (lh_d w)). unfold ld, zd, made; cbn [z_d]. destruct (m (lh_d w)) as [[x d]| |].
    - by rewrite Hm.
    - destruct (n (lh_d w)) as [o z]; cbn in *. done.
    - done.
  Qed.
  Lemma lagree_map {A B} (f : A -> B) (m : M W A) (n : ZM A) : lagree m n -> lagree (lmap f m) (zmap f n).
  Proof. intros H. apply lagree_bind; [done|intros a; apply lagree_ret]. Qed.
  Lemma lagree_bindl {A} (g : nat -> M W A) (h : option nat -> ZM A) :
    (forall l, lagree (g l) (h (Some l))) -> lagree (bind the_list g) (zbind z_list h).
  Proof. intros H w. exact (H (lh_l w) w). Qed.
  Lemma lagree_rd_ent p : lagree (K := K) (V := V) (rd_ent p) (z_rd_ent p).
  Proof. intros w. by destruct p. Qed.
  Lemma lagree_wr_ent p v : lagree (K := K) (V := V) (wr_ent_v p v) (z_wr_ent_v p v).
  Proof. intros w. by destruct p. Qed.

  Lemma lagree_loop fuel e f seen : lagree (K := K) (V := V) (lh_range_loop fuel e (note f) seen) (z_range_loop fuel e f seen).
  Proof.
    revert e seen; induction fuel as [|fuel IH]; intros e seen; [by intros w|].
    cbn [lh_range_loop z_range_loop]. destruct e as [e|]; [|apply lagree_ret].
    apply lagree_bind; [apply lagree_ld, agree_rd|intros p].
    apply lagree_bind; [apply lagree_rd_ent|intros kv].
    intros w. unfold note, bind at 1, ret at 1; cbn [fst snd].
    destruct (f kv.1 kv.2); [|apply lagree_ret].
    revert w. change (lagree (bind (ld (el_Next (Some e))) (fun e' => lh_range_loop fuel e' (note f) (seen ++ [(kv.1, kv.2)])))
                        (zbind (zd (n_ElNext (Some e))) (fun e' => z_range_loop fuel e' f (seen ++ [(kv.1, kv.2)])))).
    apply lagree_bind; [apply lagree_ld, agree_Next|intros e']. apply IH.
  Qed.
End agree.

(** C218.  On an Lhashmap whose fields are not nil the functions of this model are those of LHashMapModel.v. *)
Theorem C218_agree :
  forall (K V : Type) (eqb : K -> K -> bool) (upd : bool) (zero : V) c,
  lagree (lh_exec eqb upd zero c) (z_exec eqb upd zero c).
Proof.
  intros K V eqb upd zero c.
  assert (Hmv : forall l e, agree (T := option nat) (dl_MoveToFront l e) (n_MoveToFront (Some l) e))
    by (intros l e; apply (C215_agree (option nat) l 0 0%Z None e None)).
  assert (Hpf : forall l v, agree (T := option nat) (dl_PushFront l v) (n_PushFront (Some l) v))
    by (intros l v; apply (C215_agree (option nat) l 0 0%Z v None None)).
  assert (Hrm : forall l e, agree (T := option nat) (dl_Remove l e) (n_Remove (Some l) e))
    by (intros l e; apply (C215_agree (option nat) l 0 0%Z None e None)).
  assert (Hfr : forall l, agree (T := option nat) (dl_Front l) (n_Front (Some l)))
    by (intros l; apply (C215_agree (option nat) l 0 0%Z None None None)).
  assert (Hcl : forall l, agree (T := option nat) (dmap Some (dl_Clear l)) (n_Clear (Some l)))
    by (intros l; apply (C215_agree (option nat) l 0 0%Z None None None)).
  destruct c as [k|k v|k| |f|]; unfold lh_exec, z_exec.
  - refine (lagree_map _ _ _ _). unfold lh_Load, z_Load.
    apply lagree_bind; [by intros w|intros [e|]; [|apply lagree_ret]].
    apply lagree_bindl; intros l. apply lagree_bind; [apply lagree_ld, Hmv|intros _].
    apply lagree_bind; [apply lagree_ld, agree_rd|intros p]. apply lagree_bind; [apply lagree_rd_ent|intros kv]. apply lagree_ret.
  - refine (lagree_map _ _ _ _). unfold lh_Store, z_Store.
    apply lagree_bind; [by intros w|intros [e|]].
    + apply lagree_bind; [apply lagree_ld, agree_rd|intros p]. apply lagree_bind; [apply lagree_wr_ent|intros _].
      apply lagree_bindl; intros l. apply lagree_ld, Hmv.
    + apply lagree_bind; [by intros w|intros p]. apply lagree_bindl; intros l.
      apply lagree_bind; [apply lagree_ld, Hpf|intros [e|]]; by intros w.
  - refine (lagree_map _ _ _ _). unfold lh_Remove, z_Remove.
    apply lagree_bind; [by intros w|intros [e|]; [|apply lagree_ret]].
    apply lagree_bindl; intros l. apply lagree_bind; [apply lagree_ld, Hrm|intros _]. by intros w.
  - by intros w.
  - intros w. cbn [made z_d].
    refine (lagree_map LSeen (lh_Range (S (n_elems (lh_d w))) (note f) []) (z_Range (S (n_elems (lh_d w))) f) _ w). unfold lh_Range, z_Range.
    apply lagree_bindl; intros l. apply lagree_bind; [apply lagree_ld, Hfr|intros e]. apply lagree_loop.
  - refine (lagree_map (fun _ => LUnit) (lh_Clear (K := K) (V := V)) z_Clear _). unfold lh_Clear, z_Clear.
    apply lagree_bind; [by intros w|intros _]. apply lagree_bindl; intros l.
    intros w. specialize (Hcl l (lh_d w)). unfold dmap, bind, ret, ld, zbind, zd, zret, made in *; cbn [z_d z_ent z_nent z_m z_l].
    destruct (dl_Clear l (lh_d w)) as [[x d]| |]; [by rewrite Hcl| |done].
    destruct (n_Clear (Some l) (lh_d w)) as [o z]; cbn in Hcl; subst o. done.
Qed.
Print Assumptions C218_agree.

(** On the zero Lhashmap, whatever is called, as often as one likes: Load, Remove and Len answer as for an empty map,
    the other calls panic.  No list and no entry is changed, and it never becomes usable. *)
Theorem C218_answers :
  forall (K V : Type) (eqb : K -> K -> bool) (upd : bool) (zero : V) (d : dworld (option nat)) (ent : nat -> K * V) n cs,
  exists ent' n' m,
    z_run eqb upd zero cs (mk_zlhm d ent n None None) = (map (zero_answer zero) cs, mk_zlhm d ent' n' m None) /\
    (n <= n')%nat /\ (forall x, (x < n)%nat -> ent' x = ent x) /\ (m = None \/ m = Some []).
Proof.
  intros K V eqb upd zero d ent n cs.
  enough (H : forall ent1 n1 m1, (n <= n1)%nat -> (forall x, (x < n)%nat -> ent1 x = ent x) -> (m1 = None \/ m1 = Some []) ->
    exists ent' n' m,
      z_run eqb upd zero cs (mk_zlhm d ent1 n1 m1 None) = (map (zero_answer zero) cs, mk_zlhm d ent' n' m None) /\
      (n <= n')%nat /\ (forall x, (x < n)%nat -> ent' x = ent x) /\ (m = None \/ m = Some []))
    by (apply H; auto).
  induction cs as [|c cs IH]; intros ent1 n1 m1 Hn He Hm; [by exists ent1, n1, m1|]. cbn [z_run map].
  assert (Hc : exists ent' n' m, z_exec eqb upd zero c (mk_zlhm d ent1 n1 m1 None) = (zero_answer zero c, mk_zlhm d ent' n' m None) /\
            (n <= n')%nat /\ (forall x, (x < n)%nat -> ent' x = ent x) /\ (m = None \/ m = Some [])).
  { assert (Hd : default [] m1 = []) by (by destruct Hm as [-> | ->]).
    destruct c as [k|k v|k| |f|]; cbn [z_exec zero_answer].
    - unfold zmap, z_Load, zbind, z_get; cbn [z_m]; rewrite Hd. by exists ent1, n1, m1.
    - unfold zmap, z_Store, zbind, z_get; cbn [z_m]; rewrite Hd. cbn.
      exists (<[n1 := (k, v)]> ent1), (S n1), m1. repeat split; [lia| |done].
      intros x Hx. rewrite fn_lookup_insert_ne by lia. by apply He.
    - unfold zmap, z_Remove, zbind, z_get; cbn [z_m]; rewrite Hd. by exists ent1, n1, m1.
    - unfold zmap, z_Len, zbind; cbn [z_m]; rewrite Hd. by exists ent1, n1, m1.
    - by exists ent1, n1, m1.
    - exists ent1, n1, (Some []). repeat split; auto. }
  destruct Hc as (e1 & k1 & m2 & -> & H1 & H2 & H3).
  destruct (IH _ _ _ H1 H2 H3) as (e2 & k2 & m3 & -> & H4). by exists e2, k2, m3.
Qed.
Print Assumptions C218_answers.

Example C218_example :
  (z_run Nat.eqb true 0 [LLoad 1; LStore 1 2; LClear; LStore 1 2; LLoad 1; LLen; LRange (fun _ _ => true); LRemove 1]
     (mk_zlhm (empty_dworld None) (fun _ => (0, 0)) 0 None None)).1 =
  [Some (LVal 0 false); None; None; None; Some (LVal 0 false); Some (LInt 0); None; Some LUnit].
Proof. vm_compute. reflexivity. Qed.
(** The same calls on one that New has made *)
Example C218_made :
  match lh_New (K := nat) (V := nat) 0 0 with
  | Ok (_, w) => (z_run Nat.eqb true 0 [LLoad 1; LStore 1 2; LLoad 1; LStore 3 4; LLen; LRange (fun _ _ => true); LRemove 1; LClear; LLen] (made w)).1
  | _ => []
  end =
  [Some (LVal 0 false); Some LUnit; Some (LVal 2 true); Some LUnit; Some (LInt 2); Some (LSeen [(3, 4); (1, 2)]); Some LUnit; Some LUnit; Some (LInt 0)].
Proof. vm_compute. reflexivity. Qed.
