From Coq Require Import ZifyBool ZifyNat.
From Verif Require Import Base VecModel VecSpec VecProofs VecSteps.

Section keeps.
  Context {T : Type}.
  Notation W := (vworld T).
  Notation cmps w x := (v_less (w_vec w x), v_equal (w_vec w x)).
  (** Comparators of the existing vectors stay. *)
  Definition keeps {A} (m : M W A) : Prop := forall w a w', m w = Ok (a, w') ->
    w_vn w <= w_vn w' /\ forall x, x < w_vn w -> cmps w' x = cmps w x.
  Lemma keeps_ret {A} (a : A) : keeps (ret a).
  Proof. intros w b w' [= <- <-]. auto. Qed.
  Lemma keeps_panic {A} : keeps (panic : M W A).
  Proof. intros w b w' [=]. Qed.
  Lemma keeps_bind {A B} (m : M W A) (k : A -> M W B) : keeps m -> (forall a, keeps (k a)) -> keeps (bind m k).
  Proof.
    intros Hm Hk w b w'. unfold bind. destruct (m w) as [[a w1]| |] eqn:E; [|done..]. intros E2.
    destruct (Hm _ _ _ E) as [N1 K1]. destruct (Hk _ _ _ _ E2) as [N2 K2]. split; [lia|].
    intros x Hx. rewrite K2 by lia. by apply K1.
  Qed.
  Lemma keeps_if {A} (b : bool) (m1 m2 : M W A) : keeps m1 -> keeps m2 -> keeps (if b then m1 else m2).
  Proof. by destruct b. Qed.
  Lemma keeps_read s : keeps (read s : M W (list T)).
  Proof. intros w b w' [= <- <-]. auto. Qed.
  Lemma keeps_get v : keeps (get_d v : M W slice).
  Proof. intros w b w' [= <- <-]. auto. Qed.
  Lemma keeps_set v s : keeps (set_d v s : M W unit).
  Proof.
    intros w b w' [= <- <-]. cbn. split; [lia|]. intros x Hx. destruct (decide (x = v)) as [->|].
    - by rewrite fn_lookup_insert.
    - by rewrite fn_lookup_insert_ne.
  Qed.
  Lemma keeps_write s i (vs : list T) : keeps (write_at s i vs).
  Proof. intros w b w'. unfold write_at. destruct (s_arr s); [|destruct vs]; intros [= <- <-]; auto. Qed.
  Lemma keeps_alloc (l : list T) n : keeps (alloc l n).
  Proof. intros w b w' [= <- <-]. auto. Qed.
  Lemma keeps_reslice s i j : keeps (reslice s i j : M W slice).
  Proof. intros w b w'. unfold reslice. destruct (_ && _)%bool; intros [= <- <-]. auto. Qed.
  Lemma keeps_idx s i : keeps (idx s i : M W T).
  Proof. intros w b w'. unfold idx. destruct (getZ _ _); intros [= <- <-]. auto. Qed.
  Lemma keeps_set_idx s i (x : T) : keeps (set_idx s i x).
  Proof. intros w b w'. unfold set_idx. destruct (_ && _)%bool; [|done]. apply keeps_write. Qed.
  Lemma keeps_lift {A} (r : res A) : keeps (lift r : M W A).
  Proof. intros w b w'. unfold lift. destruct r; intros [= <- <-]. auto. Qed.
  Lemma keeps_with {A} (f : W -> res A) : keeps (with_res f).
  Proof. intros w b w' E. unfold with_res in E. by apply (keeps_lift (f w)) in E. Qed.
  Lemma keeps_New (less equal : option (cmpfn T)) : keeps (New less equal).
  Proof. intros w b w' [= <- <-]. cbn. split; [lia|]. intros x Hx. by rewrite fn_lookup_insert_ne by lia. Qed.
  (** Definitions that start by naming the state. *)
  Lemma keeps_fun {A} (f : W -> M W A) : (forall w, keeps (f w)) -> keeps (fun w => f w w).
  Proof. intros H w b w' E. by apply (H w) in E. Qed.

  Context (zero : T) (growth : nat -> nat -> nat -> nat).
  Context (auto_equal : option (T -> T -> bool)).
  Context (srt srt_stable : (T -> T -> Z) -> list T -> list T).
  Lemma keeps_append s vs : keeps (go_append zero growth s vs).
  Proof.
    intros w b w'. unfold go_append. destruct (_ <=? _); [|apply keeps_alloc].
    revert w b w'. apply (keeps_bind _ _ (keeps_write _ _ _)). intros. apply keeps_ret.
  Qed.
  Lemma keeps_sClone s : keeps (s_Clone zero growth s).
  Proof. intros w b w'. unfold s_Clone. destruct (s_arr s); [apply keeps_alloc|apply keeps_ret]. Qed.
  Lemma keeps_sReplace s i j vs : keeps (s_Replace zero growth s i j vs).
  Proof.
    intros w b w'. unfold s_Replace. destruct (_ && _)%bool; [|done]. destruct (_ <=? _); [|apply keeps_alloc].
    apply (keeps_bind _ _ (keeps_write _ _ _)). intros. apply keeps_ret.
  Qed.
  Lemma keeps_sCompact s eq : keeps (s_Compact zero s eq).
  Proof.
    intros w b w'. unfold s_Compact. destruct (contents w s); [apply keeps_ret|]. destruct (compact _ _ _); [|done..].
    apply (keeps_bind _ _ (keeps_write _ _ _)). intros. apply keeps_ret.
  Qed.
  Create HintDb keeps.
  Local Hint Resolve keeps_ret keeps_panic keeps_read keeps_get keeps_set keeps_write keeps_alloc keeps_reslice keeps_idx
    keeps_set_idx keeps_lift keeps_with keeps_New keeps_append keeps_sClone keeps_sReplace keeps_sCompact : keeps.
  Ltac kp := repeat first [ by auto with keeps | apply keeps_bind; [|intros ?] | apply keeps_if ].
  Lemma keeps_Len v : keeps (Len v : M W Z).
  Proof. unfold Len. kp. Qed.
  Lemma keeps_Cap v : keeps (Cap v : M W Z).
  Proof. unfold Cap. kp. Qed.
  Local Hint Resolve keeps_Len keeps_Cap : keeps.
  Lemma keeps_Grow v n : keeps (Grow zero growth v n).
  Proof. unfold Grow, s_Grow. kp. Qed.
  Local Hint Resolve keeps_Grow : keeps.
  Lemma keeps_Push v vs : keeps (Push zero growth v vs).
  Proof. unfold Push. kp. Qed.
  Lemma keeps_Remove v i : keeps (Remove zero v i).
  Proof. unfold Remove, reslice_from, go_copy. kp. Qed.
  Lemma keeps_Cut v i j : keeps (Cut zero growth v i j).
  Proof. unfold Cut, reslice_from. kp. Qed.
  Local Hint Resolve keeps_Push keeps_Remove keeps_Cut : keeps.
  Definition sets (c : v_call T) : bool := match c with VSetLess _ | VSetEqual _ => true | _ => false end.
  Lemma keeps_exec v c : sets c = false -> keeps (v_exec zero growth auto_equal srt srt_stable v c).
  Proof.
    intros Hc. destruct c; try done; cbn [v_exec]; (apply keeps_bind; [|intros; apply keeps_ret]).
    all: unfold Pop, Get, Set_, Clear, First, Last, Swap, Insert, Delete, Replace, s_Insert, s_Delete, Reverse, s_Reverse,
      Slice, SliceCut, SplitOff, Clone, CloneToSlice, CompactFunc, ConpareAndRemove, Clip, SortFunc, SortStableFunc.
    all: kp.
  Qed.
End keeps.

Section comparators.
  Context {T : Type} (auto_less auto_equal : option (T -> T -> bool)).
  Notation W := (vworld T).
  Lemma cmp_less_fuel (w : W) : inv w -> forall v f1 f2, v < w_vn w -> v < f1 -> v < f2 ->
    cmp_less auto_less f1 w v = cmp_less auto_less f2 w v.
  Proof.
    intros Hi v. induction v as [v IH] using (well_founded_induction lt_wf). intros f1 f2 Hv H1 H2.
    destruct f1 as [|f1], f2 as [|f2]; [lia..|]. cbn. destruct (v_less (w_vec w v)) as [[f|u]|] eqn:E; [done| |done].
    pose proof (i_less _ Hi v u Hv E). apply IH; lia.
  Qed.
  Lemma cmp_equal_fuel (w : W) : inv w -> forall v f1 f2, v < w_vn w -> v < f1 -> v < f2 ->
    cmp_equal auto_equal f1 w v = cmp_equal auto_equal f2 w v.
  Proof.
    intros Hi v. induction v as [v IH] using (well_founded_induction lt_wf). intros f1 f2 Hv H1 H2.
    destruct f1 as [|f1], f2 as [|f2]; [lia..|]. cbn. destruct (v_equal (w_vec w v)) as [[f|u]|] eqn:E; [done| |done].
    pose proof (i_equal _ Hi v u Hv E). apply IH; lia.
  Qed.
End comparators.

Section history.
  Context {T : Type} (zero : T) (growth : nat -> nat -> nat -> nat).
  Context (auto_less auto_equal : option (T -> T -> bool)).
  Context (srt srt_stable : (T -> T -> Z) -> list T -> list T).
  Context (Hsrt : forall f l, srt f l ≡ₚ l) (Hsrt2 : forall f l, srt_stable f l ≡ₚ l).
  Notation W := (vworld T).
  Notation d_of w v := (v_d (w_vec w v)).
  Notation step := (o_step zero growth auto_equal srt srt_stable).
  Notation steps := (o_steps zero growth auto_equal srt srt_stable).
  Notation exec := (v_exec zero growth auto_equal srt srt_stable).

  Lemma call_good (w : W) v c r w' : inv w -> v < w_vn w -> exec v c w = Ok (r, w') -> exists a,
    v_spec zero srt srt_stable (cmp_equal auto_equal (S v) w v) c (vseq w v) = Some (a, vseq w' v) /\ answers w' r a /\
    inv w' /\ frame w v w' /\ handed_ok w v c r w' /\ news_ok w c r w'.
  Proof.
    intros Hi Hv E. pose proof (v_step zero growth auto_equal srt srt_stable w v c Hsrt Hsrt2 Hi Hv) as H.
    unfold v_does in H. destruct (v_spec _ _ _ _ _ _) as [[a l']|]; [|congruence].
    destruct H as (r1&w1&E1&Ha&Hs&I&F&Hh&Hn). rewrite E in E1. injection E1 as <- <-. exists a. rewrite Hs. auto 7.
  Qed.

  (** Each array belongs to the vector or the clone it was made for. *)
  Record owned (owner : nat -> origin) (st : state T) : Prop := {
    o_inv : inv (fst st);
    o_vec : forall v a, v < w_vn (fst st) -> s_arr (d_of (fst st) v) = Some a -> owner a = inl v;
    o_hand : forall o s, (o, s) ∈ snd st -> wf (fst st) s /\ (forall a, s_arr s = Some a -> owner a = o) /\
      match o with inl v => v < w_vn (fst st) | inr a => s_arr s = Some a end }.

  Lemma owned_empty : owned (fun _ => inl 0) (empty_vworld, []).
  Proof. constructor; cbn; [constructor; cbn; intros; lia|intros; lia|]. intros o s H. by apply elem_of_nil in H. Qed.

  Definition touches_not (owner : nat -> origin) (x : origin) (w w' : W) : Prop :=
    (forall a, a < w_an w -> owner a = x -> w_arr w' a = w_arr w a) /\
    (forall v, x = inl v -> v < w_vn w -> w_vec w' v = w_vec w v).
  Lemma owned_step owner st o st' : owned owner st -> step st o st' -> exists owner',
    owned owner' st' /\ (forall a, a < w_an (fst st) -> owner' a = owner a) /\
    w_an (fst st) <= w_an (fst st') /\ w_vn (fst st) <= w_vn (fst st') /\ (forall p, p ∈ snd st -> p ∈ snd st') /\
    (forall x, subject (snd st) o <> Some x -> touches_not owner x (fst st) (fst st')).
  Proof.
    intros [Hi Hv Hh] Hst. destruct Hst as [w hs less equal u w' E|w hs v c r w' Hlt E|w hs k o s i x w' Hk E]; cbn [fst snd] in *.
    - destruct (New_ok w (CUser <$> less) (CUser <$> equal) Hi) as (w1&E1&I1&Q1&N1&F1&Ha1&Han1&Hv1&Hn1).
      { intros u' Hu. by destruct less. } { intros u' Hu. by destruct equal. }
      rewrite E in E1. injection E1 as -> <-. exists owner. split; [|split; [done|split; [lia|split; [lia|split; [done|]]]]].
      + constructor; cbn [fst snd]; [done| |].
        * intros v a Hlt. rewrite N1 in Hlt. destruct (decide (v = w_vn w)) as [->|]; [by rewrite Hn1|].
          rewrite Hv1 by lia. apply Hv. lia.
        * intros o s Hin. destruct (Hh o s Hin) as (H1&H2&H3). split; [|split; [done|destruct o; [lia|done]]].
          eapply wf_step; [| |exact H1]; [by rewrite Ha1|lia].
      + intros x _. split; [by rewrite Ha1|]. intros v -> Hlt. by apply Hv1.
    - destruct (call_good w v c r w' Hi Hlt E) as (a&_&_&I&F&Hho&Hne).
      set (ow' := fun b => if decide (b < w_an w) then owner b else
        if decide (s_arr (d_of w' v) = Some b) then inl v else
        if decide (w_vn w' = S (w_vn w)) then inl (w_vn w) else inr b).
      assert (Hold : forall b, b < w_an w -> ow' b = owner b). { intros b Hb. unfold ow'. by rewrite decide_True. }
      assert (Hnew : w_vn w' = w_vn w \/ w_vn w' = S (w_vn w)). { destruct c; cbn in Hne; try (left; exact Hne); right; apply Hne. }
      pose proof (fr_an _ _ _ F) as Fan. pose proof (fr_vn _ _ _ F) as Fvn.
      exists ow'. split; [|split; [done|split; [done|split; [done|split; [intros p Hp; apply elem_of_app; auto|]]]]].
      + constructor; cbn [fst snd]; [done| |].
        * intros x b Hx Hb. destruct (decide (b < w_an w)) as [Hlb|Hlb].
          -- rewrite Hold by done. destruct (decide (x = v)) as [->|Hne'].
             ++ apply Hv; [done|]. destruct (fr_own _ _ _ F) as [E'|(b'&E'&?)]; [congruence|]. assert (b = b') by congruence. lia.
             ++ destruct (decide (x < w_vn w)) as [Hlx|Hlx].
                ** apply Hv; [done|]. by rewrite (fr_vec _ _ _ F) in Hb.
                ** pose proof (fr_new _ _ _ F x b ltac:(lia) Hb). lia.
          -- unfold ow'. rewrite decide_False by done. case_decide as Ev.
             { f_equal. eapply i_own; [exact I| | |exact Ev|exact Hb]; lia. }
             destruct (decide (x < w_vn w)) as [Hlx|Hlx].
             { exfalso. destruct (decide (x = v)) as [->|Hne']; [done|]. rewrite (fr_vec _ _ _ F) in Hb by done.
               pose proof (i_wf _ Hi x Hlx) as Hw. unfold wf in Hw. rewrite Hb in Hw. lia. }
             assert (x = w_vn w) as -> by lia. rewrite decide_True by lia. done.
        * intros o s Hin. apply elem_of_app in Hin as [Hin|Hin].
          -- destruct (Hh o s Hin) as (H1&H2&H3). split; [|split].
             ++ eapply wf_step; [| |exact H1]; [|lia]. apply F.
             ++ intros b Hb. rewrite Hold; [by apply H2|]. unfold wf in H1. rewrite Hb in H1. lia.
             ++ destruct o; [lia|done].
          -- assert (Hr : r = RSlice s).
             { destruct r; unfold handed in Hin; destruct c; cbn in Hin; try (by apply elem_of_nil in Hin);
                 apply elem_of_list_singleton in Hin; congruence. }
             subst r. destruct (Hho s eq_refl) as (Hwf&Hn&Hc).
             assert (Hdec : c = VCloneToSlice \/ c <> VCloneToSlice) by (destruct c; auto).
             destruct Hdec as [->|Hnc].
             ++ cbn in Hin. apply elem_of_list_singleton in Hin. destruct (Hc eq_refl) as [Hs|(Hs&Han&Hvec&Hvn)]; rewrite Hs in Hin.
                ** injection Hin as ->. split; [done|]. split; [by rewrite Hs|]. lia.
                ** injection Hin as ->. split; [done|]. rewrite Hs. split; [|done].
                   intros b [= <-]. unfold ow'. rewrite decide_False by lia. rewrite decide_False; [rewrite decide_False by lia; done|].
                   rewrite Hvec. intros Ev. pose proof (i_wf _ Hi v Hlt) as Hw. unfold wf in Hw. rewrite Ev in Hw. lia.
             ++ assert (o = inl v) as ->. { destruct c; cbn in Hin; apply elem_of_list_singleton in Hin; congruence. }
                split; [done|]. split; [|lia]. intros b Hb. destruct (Hn Hnc) as [Hs|Hs]; [congruence|].
                rewrite Hs in Hb. assert (Hlb : b < w_an w).
                { pose proof (i_wf _ Hi v Hlt) as Hw. unfold wf in Hw. rewrite Hb in Hw. lia. }
                rewrite Hold by done. by apply Hv.
      + intros x Hx. cbn in Hx. split.
        * intros b Hb Ho. apply F; [done|]. intros Ev. apply Hx. rewrite <- Ho. f_equal. symmetry. by apply Hv.
        * intros y -> Hy. apply (fr_vec _ _ _ F); [done|]. intros ->. by apply Hx.
    - destruct (Hh o s (elem_of_list_lookup_2 _ _ _ Hk)) as (H1&H2&H3).
      unfold user_write in E.
      assert (Hr : (0 <= i < Z.of_nat (s_len s))%Z).
      { unfold set_idx in E. destruct (_ && _)%bool eqn:B; [|done]. lia. }
      destruct (set_idx_ok w s i x H1 Hr) as (w1&E1&Hs&_&Han). rewrite E in E1. injection E1 as <-.
      destruct Hs as [A1 A2 A3 A4 A5 A6 A7].
      exists owner. split; [|split; [done|split; [lia|split; [lia|split; [done|]]]]].
      + constructor; cbn [fst snd].
        * destruct Hi as [J1 J2 J3 J4]. constructor; rewrite ?A2, ?A3; try done.
          intros v Hlt. eapply wf_step; [exact A5|lia|]. by apply J1.
        * rewrite A2, A3. done.
        * intros o' s' Hin. destruct (Hh o' s' Hin) as (K1&K2&K3). split; [|split; [done|destruct o'; [lia|done]]].
          eapply wf_step; [exact A5|lia|done].
      + intros y Hy. unfold subject in Hy. rewrite Hk in Hy. cbn in Hy. split; [|by rewrite A2].
        intros b Hb Ho. apply A4; [done|]. intros Eb. apply Hy. f_equal. rewrite <- Ho. symmetry. by apply H2.
  Qed.

  Lemma owned_steps st os st' : steps st os st' -> forall owner, owned owner st -> exists owner', owned owner' st'.
  Proof.
    induction 1 as [|st o st1 os st2 H1 H2 IH]; intros owner Ho; [eauto|].
    destruct (owned_step _ _ _ _ Ho H1) as (ow1&Ho1&_). eauto.
  Qed.
  Lemma reached_owned st : v_reached zero growth auto_equal srt srt_stable st -> exists owner, owned owner st.
  Proof. intros [os H]. eapply owned_steps; [done|apply owned_empty]. Qed.
  Lemma reached_inv st : v_reached zero growth auto_equal srt srt_stable st -> inv (fst st).
  Proof. intros H. destruct (reached_owned _ H) as [ow Ho]. apply Ho. Qed.
  Lemma reached_steps st os st' : v_reached zero growth auto_equal srt srt_stable st -> steps st os st' -> v_reached zero growth auto_equal srt srt_stable st'.
  Proof.
    intros [os0 H0] H. exists (os0 ++ os). induction H0 as [|st0 o st1 os1 st2 H1 H2 IH]; [done|]. econstructor; eauto.
  Qed.

  (** Operations that avoid x leave what x shows. *)
  Lemma avoids_arrays x st os st' : avoids zero growth auto_equal srt srt_stable x st os st' -> forall owner, owned owner st ->
    exists owner', owned owner' st' /\ (forall a, a < w_an (fst st) -> owner' a = owner a) /\
      w_an (fst st) <= w_an (fst st') /\ w_vn (fst st) <= w_vn (fst st') /\ (forall p, p ∈ snd st -> p ∈ snd st') /\
      touches_not owner x (fst st) (fst st').
  Proof.
    induction 1 as [st|st o st1 os st2 Hs H1 H2 IH]; intros owner Ho.
    - exists owner. split; [done|]. split; [done|]. split; [done|]. split; [done|]. split; [done|]. split; done.
    - destruct (owned_step _ _ _ _ Ho H1) as (ow1&Ho1&Old1&An1&Vn1&Hp1&Ht1). specialize (Ht1 x Hs) as [T1 T2].
      destruct (IH ow1 Ho1) as (ow2&Ho2&Old2&An2&Vn2&Hp2&[T3 T4]).
      exists ow2. split; [done|]. split; [intros a Ha; rewrite Old2, Old1 by lia; done|]. split; [lia|]. split; [lia|]. split; [auto|]. split.
      + intros a Ha Hx. rewrite T3, T1; [done|done|done|lia|]. by rewrite Old1.
      + intros v Hx Hv. rewrite T4, T2; [done|done|done|done|lia].
  Qed.
  Lemma avoids_vec_owned v st os st' owner : avoids zero growth auto_equal srt srt_stable (inl v) st os st' -> owned owner st ->
    v < w_vn (fst st) -> vseq (fst st') v = vseq (fst st) v.
  Proof.
    intros Ha Ho Hv. destruct (avoids_arrays _ _ _ _ Ha owner Ho) as (_&_&_&_&_&_&[T1 T2]).
    unfold vseq. rewrite (T2 v) by done. unfold contents. destruct (s_arr (d_of (fst st) v)) as [a|] eqn:E; [|done].
    rewrite T1; [done| |by eapply o_vec].
    pose proof (i_wf _ (o_inv _ _ Ho) v Hv) as Hw. unfold wf in Hw. rewrite E in Hw. lia.
  Qed.
  Lemma avoids_vec v st os st' : avoids zero growth auto_equal srt srt_stable (inl v) st os st' -> v_reached zero growth auto_equal srt srt_stable st ->
    v < w_vn (fst st) -> vseq (fst st') v = vseq (fst st) v.
  Proof.
    intros Ha Hr Hv. destruct (reached_owned _ Hr) as [ow Ho]. by eapply avoids_vec_owned.
  Qed.
  Lemma avoids_slice x s st os st' : avoids zero growth auto_equal srt srt_stable x st os st' -> v_reached zero growth auto_equal srt srt_stable st ->
    (x, s) ∈ snd st -> contents (fst st') s = contents (fst st) s.
  Proof.
    intros Ha Hr Hin. destruct (reached_owned _ Hr) as [ow Ho]. destruct (avoids_arrays _ _ _ _ Ha ow Ho) as (_&_&_&_&_&_&[T1 T2]).
    destruct (o_hand _ _ Ho x s Hin) as (Hw&H2&_). unfold contents. destruct (s_arr s) as [a|] eqn:E; [|done].
    rewrite T1; [done| |by apply H2]. unfold wf in Hw. rewrite E in Hw. lia.
  Qed.

  (** * Runs of calls on one vector *)
  Lemma equal_after_ok w v c r w' : inv w -> v < w_vn w -> exec v c w = Ok (r, w') ->
    cmp_equal auto_equal (S v) w' v = equal_after auto_equal (cmp_equal auto_equal (S v) w v) c.
  Proof.
    intros Hi Hv E.
    destruct (sets c) eqn:Hc.
    - destruct c; try done.
      + cbn in E. injection E as <- <-. cbn [equal_after].
        assert (H : forall fuel u, cmp_equal auto_equal fuel (mk_vworld (w_arr w) (w_an w) (<[v:=mk_vec (d_of w v) (CUser <$> f) (v_equal (w_vec w v))]> (w_vec w)) (w_vn w)) u = cmp_equal auto_equal fuel w u); [|apply H].
        induction fuel as [|fuel IH]; intros u; cbn; [done|]. destruct (decide (u = v)) as [->|].
        * rewrite fn_lookup_insert. cbn. destruct (v_equal (w_vec w v)) as [[]|]; [done|apply IH|done].
        * rewrite fn_lookup_insert_ne by done. destruct (v_equal (w_vec w u)) as [[]|]; [done|apply IH|done].
      + cbn in E. injection E as <- <-. cbn. rewrite fn_lookup_insert. cbn. by destruct f.
    - pose proof (keeps_exec zero growth auto_equal srt srt_stable v c Hc _ _ _ E) as [N K].
      replace (equal_after _ _ c) with (cmp_equal auto_equal (S v) w v) by (by destruct c).
      assert (H : forall fuel u, u < w_vn w -> cmp_equal auto_equal fuel w' u = cmp_equal auto_equal fuel w u); [|by apply H].
      induction fuel as [|fuel IH]; intros u Hu; cbn; [done|]. specialize (K u Hu) as [= _ ->].
      destruct (v_equal (w_vec w u)) as [[]|] eqn:Eu; [done| |done]. apply IH. pose proof (i_equal _ Hi u _ Hu Eu). lia.
  Qed.

  Lemma answers_det (w : W) r a b : answers w r a -> answers w r b -> a = b.
  Proof. destruct r, a, b; cbn; try done; intros; try (destruct_and!); congruence. Qed.
  (** Once a vector has its own equality, only its own calls matter. *)
  Definition own_equal (w : W) v : Prop := forall u, v_equal (w_vec w v) <> Some (CMethod u).
  Lemma own_equal_fun (w w' : W) v : own_equal w v -> v_equal (w_vec w' v) = v_equal (w_vec w v) ->
    cmp_equal auto_equal (S v) w' v = cmp_equal auto_equal (S v) w v.
  Proof. intros Ho E. cbn. rewrite E. destruct (v_equal (w_vec w v)) as [[f|u]|] eqn:E2; [done| |done]. by destruct (Ho u). Qed.
  Lemma own_equal_after w v c r w' : own_equal w v -> v < w_vn w -> exec v c w = Ok (r, w') -> own_equal w' v.
  Proof.
    intros Ho Hv E. destruct (sets c) eqn:Hc.
    - destruct c; try done; cbn in E; injection E as <- <-; intros u; cbn; rewrite fn_lookup_insert; cbn; [apply Ho|by destruct f].
    - destruct (keeps_exec zero growth auto_equal srt srt_stable v c Hc _ _ _ E) as [_ K]. specialize (K v Hv) as [= _ K].
      intros u. rewrite K. apply Ho.
  Qed.
  Lemma trace_ok v st cs rs st' : v_trace zero growth auto_equal srt srt_stable v st cs rs st' -> forall owner, owned owner st ->
    v < w_vn (fst st) -> own_equal (fst st) v ->
    spec_run zero auto_equal srt srt_stable (cmp_equal auto_equal (S v) (fst st) v) (vseq (fst st) v) cs = Some (rs, vseq (fst st') v).
  Proof.
    induction 1 as [st|st o st1 cs rs st2 Hs Hst Htr IH|w hs c r w1 a cs rs st2 E Ha Htr IH]; intros owner Ho Hv Hoe.
    - done.
    - destruct (owned_step _ _ _ _ Ho Hst) as (ow1&Ho1&_&An1&Vn1&_&Ht). specialize (Ht _ Hs) as [T1 T2]. specialize (T2 v eq_refl Hv).
      rewrite <- (IH ow1 Ho1); [|lia|unfold own_equal; by rewrite T2].
      f_equal; [symmetry; apply own_equal_fun; [done|by rewrite T2]|].
      symmetry. eapply avoids_vec_owned; eauto. econstructor; [exact Hs|exact Hst|constructor].
    - cbn [fst snd] in *. pose proof (o_inv _ _ Ho) as Hi. cbn in Hi.
      destruct (call_good w v c r w1 Hi Hv E) as (a'&Es&Ha'&_). assert (a' = a) as -> by (by eapply answers_det).
      assert (Hst : step (w, hs) (OCall v c) (w1, hs ++ handed v c r)) by (by constructor).
      destruct (owned_step _ _ _ _ Ho Hst) as (ow1&Ho1&_&An1&Vn1&_). cbn in Vn1.
      cbn [spec_run]. rewrite Es. rewrite <- (equal_after_ok w v c r w1 Hi Hv E).
      rewrite (IH ow1 Ho1); [done|lia|by eapply own_equal_after].
  Qed.
  (** The comparators that a clone follows. *)
  Definition no_set_less (u : nat) (o : v_op T) : Prop := forall f, o <> OCall u (VSetLess f).
  Definition no_set_equal (u : nat) (o : v_op T) : Prop := forall f, o <> OCall u (VSetEqual f).
  Lemma step_less st o st' u : step st o st' -> u < w_vn (fst st) -> no_set_less u o ->
    v_less (w_vec (fst st') u) = v_less (w_vec (fst st) u) /\ w_vn (fst st) <= w_vn (fst st').
  Proof.
    intros Hst Hu Hn. destruct Hst as [w hs less equal y w' E|w hs v c r w' Hlt E|w hs k o s i x w' Hk E]; cbn [fst snd] in *.
    - apply keeps_New in E as [N K]. specialize (K u Hu) as [= -> _]. done.
    - destruct (sets c) eqn:Hc.
      + destruct c; try done; cbn in E; injection E as <- <-; cbn.
        * destruct (decide (u = v)) as [->|]; [by destruct (Hn f)|]. by rewrite fn_lookup_insert_ne.
        * destruct (decide (u = v)) as [->|]; [by rewrite fn_lookup_insert|by rewrite fn_lookup_insert_ne].
      + destruct (keeps_exec zero growth auto_equal srt srt_stable v c Hc _ _ _ E) as [N K]. specialize (K u Hu) as [= -> _]. done.
    - apply keeps_set_idx in E as [N K]. specialize (K u Hu) as [= -> _]. done.
  Qed.
  Lemma step_equal st o st' u : step st o st' -> u < w_vn (fst st) -> no_set_equal u o ->
    v_equal (w_vec (fst st') u) = v_equal (w_vec (fst st) u) /\ w_vn (fst st) <= w_vn (fst st').
  Proof.
    intros Hst Hu Hn. destruct Hst as [w hs less equal y w' E|w hs v c r w' Hlt E|w hs k o s i x w' Hk E]; cbn [fst snd] in *.
    - apply keeps_New in E as [N K]. specialize (K u Hu) as [= _ ->]. done.
    - destruct (sets c) eqn:Hc.
      + destruct c; try done; cbn in E; injection E as <- <-; cbn.
        * destruct (decide (u = v)) as [->|]; [by rewrite fn_lookup_insert|by rewrite fn_lookup_insert_ne].
        * destruct (decide (u = v)) as [->|]; [by destruct (Hn f)|]. by rewrite fn_lookup_insert_ne.
      + destruct (keeps_exec zero growth auto_equal srt srt_stable v c Hc _ _ _ E) as [N K]. specialize (K u Hu) as [= _ ->]. done.
    - apply keeps_set_idx in E as [N K]. specialize (K u Hu) as [= _ ->]. done.
  Qed.
  Lemma steps_less st os st' u : steps st os st' -> u < w_vn (fst st) -> Forall (no_set_less u) os ->
    v_less (w_vec (fst st') u) = v_less (w_vec (fst st) u) /\ w_vn (fst st) <= w_vn (fst st').
  Proof.
    induction 1 as [|st o st1 os st2 H1 H2 IH]; intros Hu Hf; [done|]. inversion Hf as [|? ? Ho Hos]; subst.
    destruct (step_less _ _ _ _ H1 Hu Ho) as [E N]. destruct IH as [E2 N2]; [lia|done|]. split; [congruence|lia].
  Qed.
  Lemma steps_equal st os st' u : steps st os st' -> u < w_vn (fst st) -> Forall (no_set_equal u) os ->
    v_equal (w_vec (fst st') u) = v_equal (w_vec (fst st) u) /\ w_vn (fst st) <= w_vn (fst st').
  Proof.
    induction 1 as [|st o st1 os st2 H1 H2 IH]; intros Hu Hf; [done|]. inversion Hf as [|? ? Ho Hos]; subst.
    destruct (step_equal _ _ _ _ H1 Hu Ho) as [E N]. destruct IH as [E2 N2]; [lia|done|]. split; [congruence|lia].
  Qed.
  Lemma Clone_methods w v r w' c : inv w -> v < w_vn w -> (c = VClone \/ exists i, c = VSplitOff i) -> exec v c w = Ok (r, w') ->
    v_less (w_vec w' (w_vn w)) = Some (CMethod v) /\ v_equal (w_vec w' (w_vn w)) = Some (CMethod v) /\ r = RVec (w_vn w) /\ w_vn w' = S (w_vn w).
  Proof.
    intros Hi Hv Hc E. destruct (call_good _ _ _ _ _ Hi Hv E) as (_&_&_&_&_&_&Hne).
    assert (H : forall m : nat -> M W unit, (forall u, keeps (m u)) -> (u <- New (Some (CMethod v)) (Some (CMethod v)) ;; m u ;;; ret (RVec u)) w = Ok (r, w') ->
      v_less (w_vec w' (w_vn w)) = Some (CMethod v) /\ v_equal (w_vec w' (w_vn w)) = Some (CMethod v)).
    { intros m Hm E1. unfold bind in E1. unfold New in E1. set (w1 := mk_vworld _ _ _ _) in E1.
      destruct (m (w_vn w) w1) as [[[] w2]| |] eqn:E2; [|done..]. injection E1 as _ <-.
      destruct (Hm _ _ _ _ E2) as [N K]. specialize (K (w_vn w)). assert (Hl : w_vn w < w_vn w1) by (cbn; lia).
      specialize (K Hl). cbn in K. rewrite fn_lookup_insert in K. injection K as -> ->. done. }
    destruct Hc as [->|[i ->]]; cbn in Hne; destruct Hne as [Hr Hn].
    - destruct (H (fun u => d <- get_d v ;; vs <- read d ;; Push zero growth u vs)) as [H1 H2]; [| |done].
      + intros u. do 2 (apply keeps_bind; [auto using @keeps_get, @keeps_read|intros ?]). apply keeps_Push.
      + rewrite <- E. cbn [v_exec]. unfold Clone, bind, New, get_d, read. by destruct (Push _ _ _ _ _) as [[[] ?]| |].
    - destruct (H (fun u => l <- Len v ;; s <- Cut zero growth v i l ;; vs <- read s ;; Push zero growth u vs)) as [H1 H2]; [| |done].
      + intros u. do 3 (apply keeps_bind; [auto using @keeps_Len, @keeps_Cut, @keeps_read|intros ?]). apply keeps_Push.
      + rewrite <- E. cbn [v_exec]. unfold SplitOff. unfold bind, New. rewrite Len_eq. cbv beta iota.
        destruct (Cut _ _ _ _ _ _) as [[s w2]| |]; [|done..]. unfold read. by destruct (Push _ _ _ _ _) as [[[] ?]| |].
  Qed.
End history.
