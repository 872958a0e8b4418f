(** The claims about synccache. *)
From Verif Require Import Base RwMapModel RwMapSpec RwMapProperties SyncCacheModel SyncCacheSpec SyncCacheHist SyncCacheLink SyncCacheDel SyncCacheCalls SyncCacheRange SyncCacheExp SyncCacheSeq SyncCacheFacts SyncCacheRegistry SyncCacheWorld.

(** ** Examples: runs, from commands *)
Section play.
Context (cb : bool).
Definition xveq (a b : nat) : option bool := Some (bool_decide (a = b)).
Definition xstep := wstep (K := nat) (V := nat) (fun p => p) xveq cb.
Definition xrun := wrun (K := nat) (V := nat) (fun p => p) xveq cb.

(** The calls of rwmap a goroutine might make next. *)
Definition xcalls (c : scall nat nat) (p : spc nat) : list (call nat nat) :=
  filter (fun mc => calls_map (fun p => p) cb c p mc = true)
    (match p with Q_put e => [CStore 5 e; CStore 6 e; CStore 7 e; CLoadOrStore 5 e; CLoadOrStore 6 e] | Q_cad k e _ => [CCad k e] | _ => [] end ++
     [CLoad 5; CLoad 6; CLoad 7; CLoadAndDelete 5; CLoadAndDelete 6; CLoadAndDelete 7; CClear; CRange]).
(** The steps it might make; [now]: the clock, [b]: what f returns. *)
Definition xsteps (w : world nat nat) (t : nat) (now : Z) (b : bool) : list (wact nat nat) :=
  [XLoc (KLoc t LNone); XLoc (KLoc t (LClock now)); XLoc (KLoc t (LUser b))] ++
  match c_fr (w_cl w) !! t with
  | Some (mk_frame c _ p) => (fun mc => XMap (AInv (tid t (inner cb c p)) mc)) <$> xcalls c p
  | None => []
  end ++
  [XBeg t] ++
  u ← [tid t true; tid t false];
  (fun l => XMap (AStep u l)) <$> [LTick; LKey 5; LKey 6; LKey 7; LCb true; LCb false].

Fixpoint xfirst (w : world nat nat) (xs : list (wact nat nat)) : option (wact nat nat * world nat nat) :=
  match xs with
  | [] => None
  | x :: xs => match xstep w x with Some (w', _) => Some (x, w') | None => xfirst w xs end
  end.
Fixpoint xgo (n : nat) (w : world nat nat) (t : nat) (now : Z) (b : bool) : list (wact nat nat) * world nat nat :=
  match n with
  | O => ([], w)
  | S n =>
      match xfirst w (xsteps w t now b) with
      | Some (x, w') => let '(xs, w2) := xgo n w' t now b in (x :: xs, w2)
      | None => ([], w)
      end
  end.

(** Commands: call and run to the end; call; go [n] steps on; anything else. *)
Inductive xcmd : Type :=
| Do (t : nat) (now : Z) (c : scall nat nat)
| Call (t : nat) (c : scall nat nat)
| Go (t : nat) (now : Z) (n : nat)
| Act (x : wact nat nat).
Fixpoint xplay (w : world nat nat) (cs : list xcmd) : list (wact nat nat) :=
  match cs with
  | [] => []
  | Do t now c :: cs =>
      match xstep w (XLoc (KInv t c)) with
      | Some (w1, _) => let '(xs, w2) := xgo 200 w1 t now true in XLoc (KInv t c) :: xs ++ xplay w2 cs
      | None => []
      end
  | Call t c :: cs =>
      match xstep w (XLoc (KInv t c)) with
      | Some (w1, _) => XLoc (KInv t c) :: xplay w1 cs
      | None => []
      end
  | Go t now n :: cs => let '(xs, w2) := xgo n w t now true in xs ++ xplay w2 cs
  | Act x :: cs => match xstep w x with Some (w1, _) => x :: xplay w1 cs | None => [] end
  end.
Definition xtrace (cs : list xcmd) : option (list (sev nat nat)) := snd <$> xrun w_init (xplay w_init cs).
End play.


Section claims.
Context {K : Type} `{Countable K} {V : Type}.
Context (deref : nat -> nat) (veq : V -> V -> option bool) (has_cb : bool).
Local Notation scall := (scall K V).
Local Notation sev := (sev K V).
Local Notation world := (world K V).
Local Notation wrun := (wrun deref veq has_cb).
Local Notation explains := (explains deref veq has_cb).
Local Notation changes := (changes deref veq has_cb).
Local Notation answers := (answers deref veq has_cb).
Local Notation swept := (swept deref veq has_cb).
Local Notation removed := (removed deref veq has_cb).
Local Notation throughout := (throughout deref veq has_cb).
Local Notation seen := (seen deref veq has_cb).
Implicit Types (w : world) (xs : list (wact K V)) (t e : nat) (k : K) (c : scall) (tr : list sev).

(** ** C73: expired entries are not returned *)
(** An entry that Load or LoadAndDelete returns had not expired when its expiration was compared with
    the clock, both read during the call. *)
Theorem C73_load xs w tr1 t c tr2 e tr3 : Inhabited K ->
  wrun w_init xs = Some (w, tr1 ++ SInv t c :: tr2 ++ SRet t (SEnt e true) :: tr3) -> within t tr2 ->
  (exists k, c = SLoad k \/ c = SLoadAndDelete k) ->
  exists n x, compares (tr1 ++ [SInv t c]) tr2 t e n x /\ Z.le (ms n) x.
Proof.
  intros HK Hr Hw Hc. destruct (run_explained _ _ _ _ _ _ HK Hr) as (h & m & Hm & Ht & _).
  eapply returned_live; [done|done|done|]. by destruct Hc as (k & [-> | ->]).
Qed.

(** So had an entry that Range hands to f. *)
Theorem C73_range xs w tr1 t k e b tr2 : Inhabited K ->
  wrun w_init xs = Some (w, tr1 ++ SUse t k e b :: tr2) ->
  exists a1 a2, tr1 = a1 ++ SInv t SRange :: a2 /\ within t a2 /\
    exists n x, compares (a1 ++ [SInv t SRange]) a2 t e n x /\ Z.le (ms n) x.
Proof.
  intros HK Hr. destruct (run_explained _ _ _ _ _ _ HK Hr) as (h & m & Hm & Ht & _). by eapply used_live.
Qed.

(** LoadOrStore may return an expired entry, but only one that was taken out or replaced during the
    call by somebody else. *)
Theorem C73_LoadOrStore_partial xs w tr : Inhabited K -> wrun w_init xs = Some (w, tr) ->
  exists h, explains h w tr /\
    every_call h (fun h1 h2 t c r => forall k v d e, c = SLoadOrStore k v d -> r = SEnt e true ->
      seen h1 h2 k (Some e) /\
      (found_live h2 t e \/ (found_expired h2 t e /\ exists o, o <> Some e /\ seen h1 h2 k o))).
Proof.
  intros HK Hr. destruct (run_explained _ _ _ _ _ _ HK Hr) as (h & He). exists h. split; [done|].
  destruct He as (m & Hm & _). intros g1 x g2 t r Eh Hin.
  destruct (mrun_answers _ _ _ _ _ _ _ _ _ _ Hm Eh Hin) as (c & h1 & h2 & Hic & Ha).
  exists c, h1, h2. split; [done|]. intros k v d e -> ->. done.
Qed.

(** ** C74: deletedCallback *)
(** With a deletedCallback: whenever an entry is taken out of the map, a goroutine did it, and either
    that goroutine is still in its call or deletedCallback got the value of the entry exactly once,
    from that goroutine. *)
Theorem C74_exactly_once xs w tr : Inhabited K -> has_cb = true -> wrun w_init xs = Some (w, tr) ->
  exists h, explains h w tr /\
    forall h1 x h2 k e, h = h1 ++ x :: h2 -> changes h1 x k (Some e) None ->
      exists t, by_ x = Some t /\ times_called_back tr e <= 1 /\
        (is_Some (c_fr (w_cl w) !! t) /\ (forall r, SRet t r ∉ trace h2) \/
         exists v, SDel t e v ∈ trace h2 /\ has_value h e v /\ times_called_back tr e = 1).
Proof.
  intros HK Hcb Hr. destruct (run_explained _ _ _ _ _ _ HK Hr) as (h & He). exists h. split; [done|].
  destruct He as (m & Hm & <- & <- & _). by apply taken_called.
Qed.
(** When no call is in progress: exactly once for every entry taken out. *)
Corollary C74_at_rest xs w tr : Inhabited K -> has_cb = true -> wrun w_init xs = Some (w, tr) -> c_fr (w_cl w) = ∅ ->
  exists h, explains h w tr /\
    forall h1 x h2 k e, h = h1 ++ x :: h2 -> changes h1 x k (Some e) None ->
      exists t v, SDel t e v ∈ trace h2 /\ has_value h e v /\ times_called_back tr e = 1.
Proof.
  intros HK Hcb Hr Hf. destruct (C74_exactly_once _ _ _ HK Hcb Hr) as (h & He & Hx). exists h. split; [done|].
  intros h1 x h2 k e Eh Hch. destruct (Hx _ _ _ _ _ Eh Hch) as (t & _ & _ & [[Ht _]|(v & Hv)]); [|by exists t, v].
  rewrite Hf, lookup_empty in Ht. by destruct Ht.
Qed.
(** deletedCallback gets only values of entries that were taken out before, by the same goroutine,
    and of each at most once; never an entry that is in the map, nor one that was replaced. *)
Theorem C74_only_deleted xs w tr : Inhabited K -> wrun w_init xs = Some (w, tr) ->
  exists h, explains h w tr /\
    (forall t e v, SDel t e v ∈ tr ->
       has_cb = true /\ has_value h e v /\ times_called_back tr e = 1 /\
       exists h1 x h2 k, h = h1 ++ x :: h2 /\ changes h1 x k (Some e) None /\ by_ x = Some t /\ SDel t e v ∈ trace h2) /\
    (forall k e, contents deref (c_sh (w_map w)) !! k = Some e -> ~ called_back tr e) /\
    (forall h1 x h2 k e e', h = h1 ++ x :: h2 -> changes h1 x k (Some e) (Some e') -> e' <> e -> ~ called_back tr e).
Proof.
  intros HK Hr. destruct (run_explained _ _ _ _ _ _ HK Hr) as (h & He). exists h. split; [done|].
  destruct He as (m & Hm & <- & _ & <-). split_and!.
  - intros t e v Hin. destruct (mrun_called _ _ _ _ _ Hm _ _ _ Hin) as (? & ? & ?). split_and!; try done.
    destruct (mrun_count _ _ _ _ _ Hm e) as [Hle _].
    assert (1 <= times_called_back (trace h) e) by (apply (proj1 (called_back_count deref veq _ _)); by exists t, v). lia.
  - intros k e Hk. by eapply mrun_present.
  - intros h1 x h2 k e e' Eh Hch Hne. by eapply mrun_replaced.
Qed.

(** ** C75: trim *)
(** A trim reads the clock once; whatever it takes out had, when compared, expired by that reading, and
    whatever stayed in the map during the trim had, when compared, not expired by it. *)
Theorem C75_trim xs w tr : Inhabited K -> wrun w_init xs = Some (w, tr) ->
  exists h, explains h w tr /\
    every_call h (fun h1 h2 t c r => c = STrim ->
      exists n, (forall n', SClock t n' ∈ trace h2 <-> n' = n) /\
        (forall k e, removed h1 h2 t k e -> exists x, compared_at h1 h2 t e n x /\ Z.lt x (ms n)) /\
        (forall k e, throughout h1 h2 k e -> exists x, compared_at h1 h2 t e n x /\ Z.le (ms n) x)).
Proof.
  intros HK Hr. destruct (run_explained _ _ _ _ _ _ HK Hr) as (h & He). exists h. split; [done|].
  destruct He as (m & Hm & _). intros g1 x g2 t r Eh Hin.
  destruct (mrun_swept _ _ _ _ _ _ _ _ _ _ Hm Eh Hin) as (c & h1 & h2 & Hic & Ha).
  exists c, h1, h2. split; [done|]. intros ->. destruct Ha as (n & Hn & H1 & H2). exists n. split; [done|].
  assert (Hcm : forall e y, SChk t e (ms n) y ∈ trace h2 -> compared_at (h1 ++ [inv_of t STrim]) h2 t e n y).
  { intros e y Hy. destruct Hic as (-> & Hi1 & Hi2).
    destruct (chk_compared_at _ _ _ h m h1 t STrim h2 e (ms n) y (x :: g2) Hm) as (n' & _ & Hc); [|done|done|].
    { rewrite Eh, <- app_assoc. done. }
    assert (n' = n) as <-; [|done]. apply Hn. destruct Hc as (a & b & -> & Ha & _). apply elem_of_app. by left. }
  split; [intros k e Hk; destruct (H1 _ _ Hk) as (y & Hy & ?)|intros k e Hk; destruct (H2 _ _ Hk) as (y & Hy & ?)]; eauto.
Qed.

(** ** C76: expirations *)
(** A new entry is made by a Store or LoadOrStore with its value, and expires at the clock reading
    plus the duration, in milliseconds. *)
Theorem C76_new xs w tr1 t e v x tr2 : Inhabited K -> wrun w_init xs = Some (w, tr1 ++ SNew t e v x :: tr2) ->
  exists a1 c a2 n k d, tr1 = a1 ++ SInv t c :: a2 ++ [SClock t n] /\ within t a2 /\
    (c = SStore k v d \/ c = SLoadOrStore k v d) /\ x = ms (Z.add n d).
Proof.
  intros HK Hr. destruct (run_explained _ _ _ _ _ _ HK Hr) as (h & m & Hm & Ht & _). by eapply new_entry.
Qed.
(** A Load or LoadAndDelete that compares the expiration returns the entry exactly if the clock
    reading is at most the expiration the entry has then; see [compares], [expiration]. *)
Theorem C76_boundary xs w tr1 t c tr2 r tr3 e n x : Inhabited K ->
  wrun w_init xs = Some (w, tr1 ++ SInv t c :: tr2 ++ SRet t r :: tr3) -> within t tr2 -> looks_up c ->
  compares (tr1 ++ [SInv t c]) tr2 t e n x ->
  (r = SEnt e true <-> Z.le (ms n) x) /\ (r = SNone <-> Z.lt x (ms n)).
Proof.
  intros HK Hr Hw Hc Hcm. destruct (run_explained _ _ _ _ _ _ HK Hr) as (h & m & Hm & Ht & _).
  rewrite (answered _ _ _ _ _ _ _ _ _ _ _ _ _ _ Hm Ht Hw Hc Hcm). unfold answer_of.
  destruct (Z.ltb x (ms n)) eqn:E; [apply Z.ltb_lt in E|apply Z.ltb_ge in E]; split; split; try done; intros; lia.
Qed.
(** If nobody moved the expiration: stored at [n0] with duration [d], returned at [n] exactly if [n]
    in milliseconds is at most [n0 + d] in milliseconds. *)
Theorem C76_stored xs w a1 t0 n0 e v d a2 t c tr2 r tr3 n x : Inhabited K ->
  wrun w_init xs = Some (w, a1 ++ SClock t0 n0 :: SNew t0 e v (ms (Z.add n0 d)) :: a2 ++ SInv t c :: tr2 ++ SRet t r :: tr3) ->
  (forall at_, SSet e at_ ∉ a2 ++ tr2) -> (forall d, SAdd e d ∉ a2 ++ tr2) ->
  within t tr2 -> looks_up c ->
  compares (a1 ++ SClock t0 n0 :: SNew t0 e v (ms (Z.add n0 d)) :: a2 ++ [SInv t c]) tr2 t e n x ->
  (r = SEnt e true <-> Z.le (ms n) (ms (Z.add n0 d))).
Proof.
  intros HK Hr Hs Ha Hw Hc Hcm.
  set (a0 := a1 ++ SClock t0 n0 :: SNew t0 e v (ms (Z.add n0 d)) :: a2) in *.
  assert (E : a1 ++ SClock t0 n0 :: SNew t0 e v (ms (Z.add n0 d)) :: a2 ++ SInv t c :: tr2 ++ SRet t r :: tr3 =
              a0 ++ SInv t c :: tr2 ++ SRet t r :: tr3) by (unfold a0; by rewrite <- app_assoc).
  assert (E' : a1 ++ SClock t0 n0 :: SNew t0 e v (ms (Z.add n0 d)) :: a2 ++ [SInv t c] = a0 ++ [SInv t c])
    by (unfold a0; by rewrite <- app_assoc).
  rewrite E in Hr. rewrite E' in Hcm. destruct (C76_boundary _ _ _ _ _ _ _ _ _ _ _ HK Hr Hw Hc Hcm) as [-> _].
  enough (x = ms (Z.add n0 d)) by (by subst x).
  destruct (run_explained _ _ _ _ _ _ HK Hr) as (h & m & Hm & Ht & _).
  destruct (mrun_made _ _ _ _ _ Hm) as (_ & _ & Hu). rewrite Ht in Hu.
  destruct Hcm as (b1 & b2 & -> & _ & Hx). setoid_rewrite elem_of_app in Hs. setoid_rewrite elem_of_app in Ha.
  unfold a0 in Hx. rewrite <- !app_assoc, expiration_app in Hx. cbn in Hx. rewrite decide_True in Hx by done.
  assert (Hnew : SNew t0 e v (ms (Z.add n0 d)) ∈ a0) by (unfold a0; apply elem_of_app; right; right; by left).
  rewrite (expiration_unmoved e t0 v (ms (Z.add n0 d))) in Hx; [by injection Hx| | | |by right].
  - intros a [Hi|Hi]%elem_of_app; [by eapply Hs; eauto|]. apply elem_of_cons in Hi as [Hi|Hi]; [done|].
    eapply Hs. right. apply elem_of_app. by left.
  - intros a [Hi|Hi]%elem_of_app; [by eapply Ha; eauto|]. apply elem_of_cons in Hi as [Hi|Hi]; [done|].
    eapply Ha. right. apply elem_of_app. by left.
  - intros t' v' y' Hi. destruct (Hu t0 v (ms (Z.add n0 d)) t' v' y' e) as (_ & _ & ?); [| |done].
    + apply elem_of_app. by left.
    + apply elem_of_app in Hi as [Hi|Hi]; [apply elem_of_app; left; unfold a0; apply elem_of_app; right; right; by right|].
      apply elem_of_app. right. apply elem_of_cons in Hi as [Hi|Hi]; [done|]. right. rewrite !elem_of_app. tauto.
Qed.

(** After SetExpiration(at), and if nobody moves the expiration since, at [at] instead. *)
Theorem C76_set xs w a1 e at_ a2 t c tr2 r tr3 n x : Inhabited K ->
  wrun w_init xs = Some (w, a1 ++ SSet e at_ :: a2 ++ SInv t c :: tr2 ++ SRet t r :: tr3) ->
  (forall ev, shifts e ev -> ev ∉ a2 ++ tr2) -> within t tr2 -> looks_up c ->
  compares (a1 ++ SSet e at_ :: a2 ++ [SInv t c]) tr2 t e n x ->
  (r = SEnt e true <-> Z.le (ms n) (ms at_)).
Proof.
  intros HK Hr Hmv Hw Hc Hcm.
  set (a0 := a1 ++ SSet e at_ :: a2) in *.
  assert (E : a1 ++ SSet e at_ :: a2 ++ SInv t c :: tr2 ++ SRet t r :: tr3 = a0 ++ SInv t c :: tr2 ++ SRet t r :: tr3)
    by (unfold a0; by rewrite <- app_assoc).
  assert (E' : a1 ++ SSet e at_ :: a2 ++ [SInv t c] = a0 ++ [SInv t c]) by (unfold a0; by rewrite <- app_assoc).
  pose proof Hr as Hr0. rewrite E in Hr. rewrite E' in Hcm. destruct (C76_boundary _ _ _ _ _ _ _ _ _ _ _ HK Hr Hw Hc Hcm) as [-> _].
  enough (x = ms at_) by (by subst x).
  destruct (run_explained _ _ _ _ _ _ HK Hr0) as (h & m & Hm & Ht & _).
  destruct (moved _ _ _ _ _ _ _ _ _ Hm Ht (or_introl (ex_intro _ at_ eq_refl))) as [_ Hnew].
  destruct Hcm as (b1 & b2 & -> & _ & Hx).
  unfold a0 in Hx. rewrite <- !app_assoc, expiration_app in Hx. cbn in Hx. rewrite decide_True in Hx by done.
  eapply moved_since in Hx; [by injection Hx| |].
  - intros ev Hev Hin. eapply Hmv; [exact Hev|]. rewrite !elem_of_app in Hin |- *. destruct Hin as [?|Hin]; [by left|].
    apply elem_of_cons in Hin as [->|?]; [by destruct Hev as [[? [=]]|[? [=]]]|]. right. apply elem_of_app. by left.
  - intros t' v' x' Hin. eapply (Hnew t' v' x'). rewrite !elem_of_app in Hin |- *. destruct Hin as [?|Hin]; [by left|].
    apply elem_of_cons in Hin as [?|?]; [done|]. right. right. rewrite !elem_of_app. tauto.
Qed.
(** After AddExpiration(d): the boundary moves by [d], rounded towards zero to milliseconds. *)
Theorem C76_add xs w a1 e d a2 t c tr2 r tr3 n x : Inhabited K ->
  wrun w_init xs = Some (w, a1 ++ SAdd e d :: a2 ++ SInv t c :: tr2 ++ SRet t r :: tr3) ->
  (forall ev, shifts e ev -> ev ∉ a2 ++ tr2) -> within t tr2 -> looks_up c ->
  compares (a1 ++ SAdd e d :: a2 ++ [SInv t c]) tr2 t e n x ->
  exists x0, expiration e None a1 = Some x0 /\ (r = SEnt e true <-> Z.le (ms n) (Z.add x0 (Z.quot d 1000000))).
Proof.
  intros HK Hr Hmv Hw Hc Hcm.
  set (a0 := a1 ++ SAdd e d :: a2) in *.
  assert (E : a1 ++ SAdd e d :: a2 ++ SInv t c :: tr2 ++ SRet t r :: tr3 = a0 ++ SInv t c :: tr2 ++ SRet t r :: tr3)
    by (unfold a0; by rewrite <- app_assoc).
  assert (E' : a1 ++ SAdd e d :: a2 ++ [SInv t c] = a0 ++ [SInv t c]) by (unfold a0; by rewrite <- app_assoc).
  pose proof Hr as Hr0. rewrite E in Hr. rewrite E' in Hcm. destruct (C76_boundary _ _ _ _ _ _ _ _ _ _ _ HK Hr Hw Hc Hcm) as [Hb _].
  destruct (run_explained _ _ _ _ _ _ HK Hr0) as (h & m & Hm & Ht & _).
  destruct (moved _ _ _ _ _ _ _ _ _ Hm Ht (or_intror (ex_intro _ d eq_refl))) as [[x0 Hx0] Hnew].
  exists x0. split; [done|]. rewrite Hb.
  enough (x = Z.add x0 (Z.quot d 1000000)) by (by subst x).
  destruct Hcm as (b1 & b2 & -> & _ & Hx).
  unfold a0 in Hx. rewrite <- !app_assoc, expiration_app, Hx0 in Hx. cbn in Hx. rewrite decide_True in Hx by done.
  eapply moved_since in Hx; [by injection Hx| |].
  - intros ev Hev Hin. eapply Hmv; [exact Hev|]. rewrite !elem_of_app in Hin |- *. destruct Hin as [?|Hin]; [by left|].
    apply elem_of_cons in Hin as [->|?]; [by destruct Hev as [[? [=]]|[? [=]]]|]. right. apply elem_of_app. by left.
  - intros t' v' x' Hin. eapply (Hnew t' v' x'). rewrite !elem_of_app in Hin |- *. destruct Hin as [?|Hin]; [by left|].
    apply elem_of_cons in Hin as [?|?]; [done|]. right. right. rewrite !elem_of_app. tauto.
Qed.

(** ** C77: sequential use *)
(** The cache used sequentially, while nobody moves an expiration and the clock does not go backwards:
    its results are those of a map with expirations that shows only entries that have not expired,
    except that CompareAndDelete on an expired entry may succeed.  Afterwards the cache holds the
    shown entries, and no others but expired ones. *)
Theorem C77_sequential_partial xs w tr n0 : Inhabited K -> wrun w_init xs = Some (w, tr) ->
  sequential false n0 tr -> c_fr (w_cl w) = ∅ ->
  exists s, sp_run veq false (sp_init n0) None tr s None /\
    (forall k n, shown s k = Some n -> contents deref (c_sh (w_map w)) !! k = Some (n_id n)) /\
    (forall k e, contents deref (c_sh (w_map w)) !! k = Some e ->
       exists v x, sp_map s !! k = Some (mk_sentry e v x)).
Proof.
  intros HK Hr Hseq Hf. destruct (run_explained _ _ _ _ _ _ HK Hr) as (h & m & Hm & <- & Hcl & <-). rewrite <- Hcl in Hf.
  destruct (mrun_sequential _ _ _ _ _ _ Hm Hseq Hf) as (s & Hs & Hb). exists s. split; [done|]. split.
  - intros k n Hk. destruct (Hb k) as [Hb1 Hb2]. unfold shown in Hk.
    destruct (sp_map s !! k) as [n'|] eqn:Ek; [|done]. destruct (Z.ltb (n_exp n') (ms (sp_now s))) eqn:El; [done|].
    injection Hk as <-. apply Z.ltb_ge in El. destruct (map_of m !! k) as [e|] eqn:Em.
    + destruct (Hb1 _ Em) as (v & x & _ & E). rewrite E in Ek. by injection Ek as <-.
    + specialize (Hb2 eq_refl _ eq_refl). lia.
  - intros k e Hk. destruct (Hb k) as [Hb1 _]. destruct (Hb1 _ Hk) as (v & x & _ & E). eauto.
Qed.

(** ** C84, C85, C86: what the calls do while others run *)
(** Every run has one history in which every call of a single key that returns did what its result
    says; see [answers]. *)
Theorem C84_calls xs w tr : Inhabited K -> wrun w_init xs = Some (w, tr) ->
  exists h, explains h w tr /\ every_call h answers.
Proof.
  intros HK Hr. destruct (run_explained _ _ _ _ _ _ HK Hr) as (h & He). exists h. split; [done|].
  destruct He as (m & Hm & _). intros g1 x g2 t r Eh Hin. by eapply mrun_answers.
Qed.
Theorem C85_range xs w tr : Inhabited K -> wrun w_init xs = Some (w, tr) ->
  exists h, explains h w tr /\
    every_call h (fun h1 h2 t c r => c = SRange ->
      NoDup (used t (trace h2)) /\
      (forall k e b, SUse t k e b ∈ trace h2 -> seen h1 h2 k (Some e) /\ found_live h2 t e) /\
      (forall k e, removed h1 h2 t k e -> found_expired h2 t e) /\
      ((exists k e, SUse t k e false ∈ trace h2) \/
       forall k e, throughout h1 h2 k e -> SUse t k e true ∈ trace h2)).
Proof.
  intros HK Hr. destruct (run_explained _ _ _ _ _ _ HK Hr) as (h & He). exists h. split; [done|].
  destruct He as (m & Hm & _). intros g1 x g2 t r Eh Hin.
  destruct (mrun_swept _ _ _ _ _ _ _ _ _ _ Hm Eh Hin) as (c & h1 & h2 & Hic & Ha).
  exists c, h1, h2. split; [done|]. by intros ->.
Qed.
Theorem C86_clear xs w tr : Inhabited K -> wrun w_init xs = Some (w, tr) ->
  exists h, explains h w tr /\
    every_call h (fun h1 h2 t c r => c = SClear ->
      (forall k e, ~ throughout h1 h2 k e) /\
      (has_cb = false -> exists g1 g2 m, h2 = g1 ++ g2 /\ mrun deref veq has_cb m_init (h1 ++ g1) m /\ map_of m = ∅)).
Proof.
  intros HK Hr. destruct (run_explained _ _ _ _ _ _ HK Hr) as (h & He). exists h. split; [done|].
  destruct He as (m & Hm & _). intros g1 x g2 t r Eh Hin.
  destruct (mrun_swept _ _ _ _ _ _ _ _ _ _ Hm Eh Hin) as (c & h1 & h2 & Hic & Ha).
  exists c, h1, h2. split; [done|]. by intros ->.
Qed.

End claims.

(** ** C78: the registry *)
(** On a tick the caches are ranged over; a cache that was started last, and not closed meanwhile, is
    trimmed; one that was closed last, and not started meanwhile, is not. *)
Theorem C78_trimmed {K} `{Countable K} {V} (deref : nat -> V) (zero : V) veq acts (cf : config K V) tr1 tr2 tr3 u r k :
  Inhabited K ->
  run deref zero veq new_config acts = Some (cf, tr1 ++ EInv u CRange :: tr2 ++ ERet u r :: tr3) ->
  (forall r', ERet u r' ∉ tr2) -> (forall k v, ECall u k v false ∉ tr2) ->
  last_was (starts k) (drops k) tr1 -> none_called (drops k) tr2 ->
  exists v, ECall u k v true ∈ tr2.
Proof. apply run_visited. Qed.
Theorem C78_not_trimmed {K} `{Countable K} {V} (deref : nat -> V) (zero : V) veq acts (cf : config K V) tr1 tr2 tr3 u k :
  Inhabited K ->
  run deref zero veq new_config acts = Some (cf, tr1 ++ EInv u CRange :: tr2 ++ tr3) ->
  (forall r', ERet u r' ∉ tr2) ->
  last_was (closes k) (adds k) tr1 -> none_called (adds k) tr2 ->
  forall v b, ECall u k v b ∉ tr2.
Proof. apply run_not_visited. Qed.

Print Assumptions C73_load.
Print Assumptions C73_range.
Print Assumptions C73_LoadOrStore_partial.
Print Assumptions C74_exactly_once.
Print Assumptions C74_at_rest.
Print Assumptions C74_only_deleted.
Print Assumptions C75_trim.
Print Assumptions C76_new.
Print Assumptions C76_boundary.
Print Assumptions C76_stored.
Print Assumptions C76_set.
Print Assumptions C76_add.
Print Assumptions C77_sequential_partial.
Print Assumptions C78_trimmed.
Print Assumptions C78_not_trimmed.
Print Assumptions C84_calls.
Print Assumptions C85_range.
Print Assumptions C86_clear.

(** ** Examples *)
Lemma xtrace_run cb cs tr : xtrace cb cs = Some tr ->
  exists w, wrun (fun p => p) xveq cb w_init (xplay cb w_init cs) = Some (w, tr).
Proof.
  unfold xtrace, xrun. destruct (wrun _ _ _ _ _) as [[w tr']|]; [|done]. cbn. intros [= ->]. by exists w.
Qed.
Local Ltac no_ev := split; intros ? Hin; repeat (apply elem_of_cons in Hin as [Hin|Hin]; [discriminate Hin|]); by apply elem_of_nil in Hin.

(** Stored for 1 ms at 0; the last instant of that millisecond still gives the entry, the next does not. *)
Definition ex73 : list xcmd := [Do 1 0 (SStore 5 50 1000000); Do 2 1999999 (SLoad 5); Do 2 2000000 (SLoad 5)].
Definition ex73_new : list (sev nat nat) := [SInv 1 (SStore 5 50 1000000); SClock 1 0; SNew 1 1 50 1; SRet 1 SUnit].
Definition ex73_in : list (sev nat nat) := [SClock 2 1999999; SChk 2 1 1 1].
Definition ex73_end : list (sev nat nat) := [SInv 2 (SLoad 5); SClock 2 2000000; SChk 2 1 2 1; SDel 2 1 50; SRet 2 SNone].
Example C73_ex : exists xs w,
  wrun (fun p => p) xveq true w_init xs =
    Some (w, ex73_new ++ SInv 2 (SLoad 5) :: ex73_in ++ SRet 2 (SEnt 1 true) :: ex73_end) /\
  within 2 ex73_in /\ compares (ex73_new ++ [SInv 2 (SLoad 5)]) ex73_in 2 1 1999999 1.
Proof.
  destruct (xtrace_run true ex73 (ex73_new ++ SInv 2 (SLoad 5) :: ex73_in ++ SRet 2 (SEnt 1 true) :: ex73_end))
    as [w Hw]; [vm_compute; reflexivity|].
  eexists _, w. split; [exact Hw|]. split; [no_ev|]. exists [SClock 2 1999999], []. split; [done|]. split; [by left|done].
Qed.
(** The same run meets the hypotheses of C76_stored. *)
Example C76_stored_ex : exists xs w a1 a2,
  wrun (fun p => p) xveq true w_init xs =
    Some (w, a1 ++ SClock 1 0 :: SNew 1 1 50 (ms (0 + 1000000)) :: a2 ++ SInv 2 (SLoad 5) :: ex73_in ++ SRet 2 (SEnt 1 true) :: ex73_end) /\
  (forall at_, SSet 1 at_ ∉ a2 ++ ex73_in) /\ (forall d, SAdd 1 d ∉ a2 ++ ex73_in) /\
  compares (a1 ++ SClock 1 0 :: SNew 1 1 50 (ms (0 + 1000000)) :: a2 ++ [SInv 2 (SLoad 5)]) ex73_in 2 1 1999999 1.
Proof.
  destruct C73_ex as (xs & w & Hr & _ & Hc). exists xs, w, [SInv 1 (SStore 5 50 1000000)], [SRet 1 SUnit].
  split; [exact Hr|]. split; [|split; [|exact Hc]]; intros ? Hin; repeat (apply elem_of_cons in Hin as [Hin|Hin]; [discriminate Hin|]);
    by apply elem_of_nil in Hin.
Qed.

(** A Range finds an expired entry; meanwhile somebody deletes a key not visited yet and stores one;
    then trim, CompareValueAndDelete and Clear. *)
Definition ex74 : list xcmd :=
  [Do 1 0 (SStore 5 50 1000000); Do 1 0 (SStore 6 60 9000000); Call 1 SRange; Go 1 2000000 12; Do 2 2000000 (SDelete 6);
   Do 2 2000000 (SStore 7 70 5000000); Go 1 2000000 100; Do 1 2500000 STrim; Do 2 2000000 (SCvad 7 70);
   Do 2 0 (SStore 5 51 100); Do 2 0 SRange; Do 2 0 (SStore 5 52 100); Do 2 0 SClear].
Definition ex74_tr : list (sev nat nat) :=
  [SInv 1 (SStore 5 50 1000000); SClock 1 0; SNew 1 1 50 1; SRet 1 SUnit;
        SInv 1 (SStore 6 60 9000000); SClock 1 0; SNew 1 2 60 9; SRet 1 SUnit;
        SInv 1 SRange; SClock 1 2000000; SChk 1 1 2 1;
        SInv 2 (SDelete 6); SDel 2 2 60; SRet 2 SUnit;
        SInv 2 (SStore 7 70 5000000); SClock 2 2000000; SNew 2 3 70 7; SRet 2 SUnit;
        SDel 1 1 50; SRet 1 SUnit;
        SInv 1 STrim; SClock 1 2500000; SChk 1 3 2 7; SRet 1 SUnit;
        SInv 2 (SCvad 7 70); SClock 2 2000000; SChk 2 3 2 7; SDel 2 3 70; SRet 2 (SBool true);
        SInv 2 (SStore 5 51 100); SClock 2 0; SNew 2 4 51 0; SRet 2 SUnit;
        SInv 2 SRange; SClock 2 0; SChk 2 4 0 0; SUse 2 5 4 true; SRet 2 SUnit;
        SInv 2 (SStore 5 52 100); SClock 2 0; SNew 2 5 52 0; SRet 2 SUnit;
        SInv 2 SClear; SDel 2 5 52; SRet 2 SUnit].
Example C74_ex : exists w, xrun true w_init (xplay true w_init ex74) = Some (w, ex74_tr) /\ c_fr (w_cl w) = ∅.
Proof.
  assert (Hx : (fun x => (map_to_list (c_fr (w_cl x.1)), x.2)) <$> xrun true w_init (xplay true w_init ex74) =
    Some ([], ex74_tr)) by (vm_compute; reflexivity).
  destruct (xrun true w_init (xplay true w_init ex74)) as [[w tr]|]; [|done]. cbn in Hx. injection Hx as H1 ->.
  exists w. split; [done|]. by apply map_to_list_empty_iff.
Qed.

(** A trim; while it is at the first entry, another entry is replaced. *)
Definition ex75 : list xcmd :=
  [Do 1 0 (SStore 5 50 1000000); Do 1 0 (SStore 6 60 2000000); Do 1 0 (SStore 7 70 3000000); Call 1 STrim;
   Go 1 3999999 15; Do 2 3999999 (SStore 6 61 2000000); Go 1 0 200; Do 2 3999999 (SLoad 6)].
Example C75_ex : xtrace true ex75 = Some
  [SInv 1 (SStore 5 50 1000000); SClock 1 0; SNew 1 1 50 1; SRet 1 SUnit;
   SInv 1 (SStore 6 60 2000000); SClock 1 0; SNew 1 2 60 2; SRet 1 SUnit;
   SInv 1 (SStore 7 70 3000000); SClock 1 0; SNew 1 3 70 3; SRet 1 SUnit;
   SInv 1 STrim; SClock 1 3999999; SChk 1 1 3 1;
   SInv 2 (SStore 6 61 2000000); SClock 2 3999999; SNew 2 4 61 5; SRet 2 SUnit;
   SDel 1 1 50; SChk 1 4 3 5; SChk 1 3 3 3; SRet 1 SUnit;
   SInv 2 (SLoad 6); SClock 2 3999999; SChk 2 4 3 5; SRet 2 (SEnt 4 true)].
Proof. vm_compute. reflexivity. Qed.

(** AddExpiration of 2.7 ms adds 2 ms. *)
Example C76_add_ex : xtrace true
  [Do 1 0 (SStore 5 50 1000000); Act (XLoc (KAdd 1 2700000)); Do 1 3999999 (SLoad 5);
   Act (XLoc (KSet 1 9999999)); Do 1 9000001 (SLoadAndDelete 5)] = Some
  [SInv 1 (SStore 5 50 1000000); SClock 1 0; SNew 1 1 50 1; SRet 1 SUnit; SAdd 1 2700000;
   SInv 1 (SLoad 5); SClock 1 3999999; SChk 1 1 3 3; SRet 1 (SEnt 1 true); SSet 1 9999999;
   SInv 1 (SLoadAndDelete 5); SClock 1 9000001; SChk 1 1 9 9; SDel 1 1 50; SRet 1 (SEnt 1 true)].
Proof. vm_compute. reflexivity. Qed.

(** ** C73: LoadOrStore returns an expired entry *)
(** Goroutine 1 finds the entry expired; before it deletes it, goroutine 2 replaces it; goroutine 1
    returns the expired entry as loaded. *)
Theorem C73_LoadOrStore_refuted :
  exists xs w, wrun (K := nat) (V := nat) (fun p => p) xveq true w_init xs =
    Some (w, [SInv 1 (SStore 5 50 1000000); SClock 1 0; SNew 1 1 50 1; SRet 1 SUnit;
              SInv 1 (SLoadOrStore 5 51 1000000); SClock 1 5000000; SNew 1 2 51 6; SClock 1 5000000; SChk 1 1 5 1;
              SInv 2 (SStore 5 52 1000000); SClock 2 5000000; SNew 2 3 52 6; SRet 2 SUnit;
              SRet 1 (SEnt 1 true)]).
Proof.
  eexists _. apply (xtrace_run true [Do 1 0 (SStore 5 50 1000000); Call 1 (SLoadOrStore 5 51 1000000); Go 1 5000000 12;
    Do 2 5000000 (SStore 5 52 1000000); Go 1 5000000 30]). vm_compute. reflexivity.
Qed.
Print Assumptions C73_LoadOrStore_refuted.

(** ** C77: CompareAndDelete sees an expired entry *)
Definition ex77 : list (sev nat nat) :=
  [SInv 1 (SStore 5 50 1000000); SClock 1 0; SNew 1 1 50 1; SRet 1 SUnit;
   SInv 1 (SStore 7 70 1000000); SClock 1 5000000; SNew 1 2 70 6; SRet 1 SUnit;
   SInv 2 (SCad 5 1); SDel 2 1 50; SRet 2 (SBool true)].
Theorem C77_sequential_refuted :
  (exists xs w, wrun (K := nat) (V := nat) (fun p => p) xveq true w_init xs = Some (w, ex77)) /\
  sequential false 0 ex77 /\ ~ exists s, sp_run xveq true (sp_init 0) None ex77 s None.
Proof.
  split; [|split].
  - eexists _. apply (xtrace_run true [Do 1 0 (SStore 5 50 1000000); Do 1 5000000 (SStore 7 70 1000000); Do 2 0 (SCad 5 1)]).
    vm_compute. reflexivity.
  - cbn. lia.
  - intros (s & Hs). cbn [ex77 sp_run sp_step sp_call] in Hs. repeat match goal with Hx : ex _ |- _ => destruct Hx | Hx : _ /\ _ |- _ => destruct Hx end; simplify_eq; cbn [sp_call] in *;
    repeat match goal with Hx : ex _ |- _ => destruct Hx | Hx : _ /\ _ |- _ => destruct Hx end; simplify_eq.
    match goal with Hx : match shown ?s 5 with _ => _ end |- _ =>
      assert (Hs : shown s 5 = None) by (vm_compute; reflexivity); rewrite Hs in Hx; destruct Hx as [[Hx _]|[Hx _]]; done end.
Qed.
Print Assumptions C77_sequential_refuted.

(** A sequential use: an entry expires; LoadOrStore replaces it. *)
Definition ex77b : list (sev nat nat) :=
  [SInv 1 (SStore 5 50 1000000); SClock 1 0; SNew 1 1 50 1; SRet 1 SUnit;
   SInv 2 (SLoadOrStore 5 51 1000000); SClock 2 2000000; SNew 2 2 51 3; SClock 2 2000000; SChk 2 1 2 1;
   SClock 2 2000000; SNew 2 3 51 3; SRet 2 (SEnt 3 false);
   SInv 1 SRange; SClock 1 2000000; SChk 1 3 2 3; SUse 1 5 3 true; SRet 1 SUnit].
Example C77_ex : exists xs w, wrun (K := nat) (V := nat) (fun p => p) xveq false w_init xs = Some (w, ex77b) /\
  sequential false 0 ex77b /\ c_fr (w_cl w) = ∅.
Proof.
  set (xs := xplay false w_init [Do 1 0 (SStore 5 50 1000000); Do 2 2000000 (SLoadOrStore 5 51 1000000); Do 1 2000000 SRange]).
  assert (Hx : (fun x => (map_to_list (c_fr (w_cl x.1)), x.2)) <$> xrun false w_init xs = Some ([], ex77b)) by (vm_compute; reflexivity).
  exists xs. unfold xrun in Hx. destruct (wrun _ _ _ _ _) as [[w tr]|]; [|done]. cbn in Hx. injection Hx as H1 ->.
  exists w. split; [done|]. split; [|by apply map_to_list_empty_iff]. cbn. lia.
Qed.

(** Caches 5, 6 and 7 are started, 6 is closed; the Range trims 5 and 7. *)
Definition ex78_before : list (event nat nat) :=
  [EInv 1 (CStore 5 50); ERet 1 RUnit; EInv 1 (CStore 6 60); ERet 1 RUnit; EInv 1 (CStore 7 70); ERet 1 RUnit;
   EInv 1 (CDelete 6); ERet 1 RUnit].
Definition ex78_in : list (event nat nat) := [ECall 2 5 50 true; ECall 2 7 70 true].
Definition ex78 : list (action nat nat) :=
  calls_ 1 (CStore 5 50) ++ calls_ 1 (CStore 6 60) ++ calls_ 1 (CStore 7 70) ++ calls_ 1 (CDelete 6) ++
  AInv 2 CRange :: concat (replicate 30 [AStep 2 LTick; AStep 2 (LKey 5); AStep 2 (LKey 6); AStep 2 (LKey 7); AStep 2 (LCb true)]).
Example C78_ex :
  (exists acts cf, ex_run acts = Some (cf, ex78_before ++ EInv 2 CRange :: ex78_in ++ [ERet 2 RUnit])) /\
  last_was (starts 5) (drops 5) ex78_before /\ last_was (closes 6) (adds 6) ex78_before.
Proof.
  split; [|split].
  - assert (Hx : snd <$> ex_run (play new_config ex78) = Some (ex78_before ++ EInv 2 CRange :: ex78_in ++ [ERet 2 RUnit]))
      by (vm_compute; reflexivity).
    exists (play new_config ex78). destruct (ex_run (play new_config ex78)) as [[cf tr]|]; [|done]. cbn in Hx. injection Hx as ->. by exists cf.
  - exists [], 1, (CStore 5 50), [], RUnit, (drop 2 ex78_before). split_and!; try done.
    + by exists 50.
    + intros r Hin. by apply elem_of_nil in Hin.
    + intros tr1 t c tr2 E. by destruct tr1.
    + intros t c Hin. cbn in Hin. repeat (apply elem_of_cons in Hin as [Hin|Hin]; [try discriminate Hin; injection Hin as -> ->; cbn; lia|]).
      by apply elem_of_nil in Hin.
  - exists (take 6 ex78_before), 1, (CDelete 6), [], RUnit, []. split_and!; try done.
    + intros r Hin. by apply elem_of_nil in Hin.
    + intros tr1 t c tr2 E Hc. cbn in E. repeat (destruct tr1 as [|? tr1]; cbn in E; [try discriminate E; injection E as <- <- <-; exists RUnit; cbn; by left|injection E as <- E]). by destruct tr1.
    + intros t c Hin. cbn in Hin. repeat (apply elem_of_cons in Hin as [Hin|Hin]; [discriminate Hin|]). by apply elem_of_nil in Hin.
Qed.

(** C87: a goroutine in a call can always make a step, unless another one holds the mutex of the
    map; and then that one is in a call and can make a step.  (Every value has an address, or the
    map could not store it.) *)
Theorem C87_synccache_no_deadlock :
  forall (K : Type) (EqK : EqDecision K) (CountK : Countable K) (V : Type) (deref : nat -> nat)
    (veq : V -> V -> option bool) (has_cb : bool) (w : world K V) xs tr t,
  Inhabited K -> (forall e, exists q, deref q = e) -> wrun deref veq has_cb w_init xs = Some (w, tr) ->
  is_Some (c_fr (w_cl w) !! t) ->
  (exists x, gor_of x = Some t /\ is_Some (wstep deref veq has_cb w x)) \/
  (exists u x, Nat.div2 u <> t /\ s_lock (c_sh (w_map w)) = Some u /\ is_Some (c_fr (w_cl w) !! Nat.div2 u) /\
     gor_of x = Some (Nat.div2 u) /\ is_Some (wstep deref veq has_cb w x)).
Proof. intros. by eapply nobody_stuck. Qed.
Print Assumptions C87_synccache_no_deadlock.
(** Goroutine 1 is storing and holds the mutex, goroutine 2 waits for it. *)
Example C87_ex : exists xs w tr, wrun (K := nat) (V := nat) (fun p => p) xveq false w_init xs = Some (w, tr) /\
  is_Some (c_fr (w_cl w) !! 2) /\ s_lock (c_sh (w_map w)) = Some (tid 1 false) /\
  c_thr (w_map w) !! tid 2 false = Some (CStore 6 2, P_lock).
Proof.
  set (xs := xplay false w_init [Call 1 (SStore 5 50 1000000); Go 1 0 5; Call 2 (SStore 6 60 1000000); Go 2 0 100]).
  assert (Hx : (fun x => (bool_decide (is_Some (c_fr (w_cl x.1) !! 2)), s_lock (c_sh (w_map x.1)), c_thr (w_map x.1) !! tid 2 false)) <$>
    xrun false w_init xs = Some (true, Some (tid 1 false), Some (CStore 6 2, P_lock))) by (vm_compute; reflexivity).
  exists xs. unfold xrun in Hx. destruct (wrun _ _ _ _ _) as [[w tr]|]; [|done]. cbn [fmap option_fmap option_map fst] in Hx.
  injection Hx as H1 H2 H3. exists w, tr. split_and!; try done. by apply bool_decide_eq_true in H1.
Qed.
