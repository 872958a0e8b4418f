(** Properties C128 and C131-C133: comparing by index, and the capacity of a vector *)
From Coq Require Import ZifyBool ZifyNat.
From Verif Require Import Base VecModel VecSpec VecProofs VecSteps VecHistory VecQuery VecExample VecCapSpec VecCap.

Section properties.
  Context {T : Type} (zero : T) (growth : nat -> nat -> nat -> nat).
  Context (auto_less auto_equal : option (T -> T -> bool)).
  Context (srt srt_stable : (T -> T -> Z) -> list T -> list T).
  Context (Hsrt : forall f l, srt f l ≡ₚ l) (Hsrt2 : forall f l, srt_stable f l ≡ₚ l).
  Notation W := (vworld T).
  Notation steps := (o_steps zero growth auto_equal srt srt_stable).
  Notation exec := (v_exec zero growth auto_equal srt srt_stable).
  Notation reached := (v_reached zero growth auto_equal srt srt_stable).
  Notation less_of w v := (cmp_less auto_less (S v) w v).
  Notation equal_of w v := (cmp_equal auto_equal (S v) w v).
  Implicit Types (w : W) (st : state T) (v u : nat) (c : v_call T) (l : list T).

  (** ** C128 *)
  Lemma idx_vseq w v (i : Z) x : (0 <= i)%Z -> vseq w v !! Z.to_nat i = Some x -> idx (v_d (w_vec w v)) i w = Ok (x, w).
  Proof. intros H E. unfold idx, getZ. fold (vseq w v). by rewrite bool_decide_true, E by done. Qed.
  Theorem C128_Less w v lt (i j : Z) x y : less_of w v = Some lt -> (0 <= i)%Z -> (0 <= j)%Z ->
    vseq w v !! Z.to_nat i = Some x -> vseq w v !! Z.to_nat j = Some y ->
    Less auto_less v i j w = Ok (lt x y, w).
  Proof.
    intros E Hi Hj Hx Hy. unfold Less, bind, get_d. rewrite (idx_vseq _ _ _ _ Hi Hx), (idx_vseq _ _ _ _ Hj Hy).
    unfold with_res, lift, CmpLess. by rewrite E.
  Qed.
  Theorem C128_Equal w v eq (i j : Z) x y : equal_of w v = Some eq -> (0 <= i)%Z -> (0 <= j)%Z ->
    vseq w v !! Z.to_nat i = Some x -> vseq w v !! Z.to_nat j = Some y ->
    Equal auto_equal v i j w = Ok (eq x y, w).
  Proof.
    intros E Hi Hj Hx Hy. unfold Equal, bind, get_d. rewrite (idx_vseq _ _ _ _ Hi Hx), (idx_vseq _ _ _ _ Hj Hy).
    unfold with_res, lift, CmpEqual. by rewrite E.
  Qed.
  (** The comparators themselves, on any two values. *)
  Theorem C128_Cmp w v lt eq x y : less_of w v = Some lt -> equal_of w v = Some eq ->
    CmpLess auto_less w v x y = Ok (lt x y) /\ CmpEqual auto_equal w v x y = Ok (eq x y).
  Proof. intros E1 E2. unfold CmpLess, CmpEqual. by rewrite E1, E2. Qed.
  Theorem C128_IsEmpty st v : reached st -> v < w_vn (fst st) ->
    exists b, IsEmpty v (fst st) = Ok (b, fst st) /\ (b = true <-> vseq (fst st) v = []).
  Proof.
    intros Hr Hv. pose proof (reached_inv _ _ _ _ _ Hsrt Hsrt2 _ Hr) as Hi. unfold IsEmpty, bind. rewrite Len_eq.
    eexists. split; [reflexivity|]. rewrite <- (len_seq _ _ Hi Hv). destruct (vseq (fst st) v); cbn; [done|]. split; [lia|done].
  Qed.

  (** ** C131 *)
  Theorem C131_Cap st v : reached st -> v < w_vn (fst st) ->
    Cap v (fst st) = Ok (Z.of_nat (cap_of (fst st) v), fst st) /\ length (vseq (fst st) v) <= cap_of (fst st) v.
  Proof.
    intros Hr Hv. pose proof (reached_inv _ _ _ _ _ Hsrt Hsrt2 _ Hr) as Hi. split; [done|]. rewrite (len_seq _ _ Hi Hv).
    apply (wf_len_cap (fst st)). by apply Hi.
  Qed.
  Lemma after st v c r w' : reached st -> v < w_vn (fst st) -> exec v c (fst st) = Ok (r, w') -> inv w' /\ v < w_vn w'.
  Proof.
    intros Hr Hv E. pose proof (reached_inv _ _ _ _ _ Hsrt Hsrt2 _ Hr) as Hi.
    pose proof (v_step zero growth auto_equal srt srt_stable (fst st) v c Hsrt Hsrt2 Hi Hv) as H. unfold v_does in H.
    destruct (v_spec _ _ _ _ _ _) as [[a l']|]; [|congruence]. destruct H as (r'&w2&E'&_&_&I&F&_).
    rewrite E in E'. injection E' as <- <-. split; [done|]. pose proof (fr_vn _ _ _ F). lia.
  Qed.
  (** A call that asks for no more room than there is makes no array and leaves the elements in place;
      one that asks for more makes exactly one array, and the elements go there. *)
  Theorem C131_call st v c r w' : reached st -> v < w_vn (fst st) -> ~ copying c -> c <> VClip -> exec v c (fst st) = Ok (r, w') ->
    let need := asks c (length (vseq (fst st) v)) (length (vseq w' v)) in
    (need <= cap_of (fst st) v -> made (fst st) w' 0 /\ stays (fst st) v w') /\
    (cap_of (fst st) v < need -> made (fst st) w' 1 /\ moves (fst st) v w' /\ need <= cap_of w' v).
  Proof.
    intros Hr Hv Hc Hcl E need. pose proof (reached_inv _ _ _ _ _ Hsrt Hsrt2 _ Hr) as Hi.
    destruct (after _ _ _ _ _ Hr Hv E) as [Hi' Hv'].
    destruct (call_room _ _ _ _ _ _ _ _ _ _ Hi Hi' Hv Hv' Hc Hcl E) as [H1 H2].
    subst need. rewrite (len_seq _ _ Hi Hv), (len_seq _ _ Hi' Hv'). unfold made. split; intros H.
    - destruct (H1 H). split; [lia|done].
    - destruct (H2 H) as (?&?&?). split; [lia|done].
  Qed.
  Theorem C131_copying st v c r w' : reached st -> v < w_vn (fst st) -> copying c -> exec v c (fst st) = Ok (r, w') ->
    stays (fst st) v w'.
  Proof. intros Hr Hv Hc E. pose proof (reached_inv _ _ _ _ _ Hsrt Hsrt2 _ Hr) as Hi. by eapply copying_stays. Qed.
  Theorem C131_Clip st v r w' : reached st -> v < w_vn (fst st) -> exec v VClip (fst st) = Ok (r, w') ->
    cap_of w' v = length (vseq (fst st) v) /\ made (fst st) w' 0 /\
    s_arr (v_d (w_vec w' v)) = s_arr (v_d (w_vec (fst st) v)) /\ s_off (v_d (w_vec w' v)) = s_off (v_d (w_vec (fst st) v)).
  Proof.
    intros Hr Hv E. pose proof (reached_inv _ _ _ _ _ Hsrt Hsrt2 _ Hr) as Hi. rewrite (len_seq _ _ Hi Hv).
    cbn [v_exec] in E. apply bind_inv in E as (a&w1&E1&E). injection E as _ <-. unfold Clip in E1.
    apply bind_inv in E1 as (d&w2&E2&E1). apply get_d_inv in E2 as [-> ->]. apply set_d_inv in E1 as (A1&A2&_).
    unfold cap_of, made. rewrite A2. split; [done|]. split; [lia|done].
  Qed.

  (** ** C132 *)
  Theorem C132_Grow st v (n : Z) r w' : reached st -> v < w_vn (fst st) -> exec v (VGrow n) (fst st) = Ok (r, w') ->
    length (vseq w' v) + Z.to_nat n <= cap_of w' v /\ vseq w' v = vseq (fst st) v.
  Proof.
    intros Hr Hv E. pose proof (reached_inv _ _ _ _ _ Hsrt Hsrt2 _ Hr) as Hi.
    pose proof (v_step zero growth auto_equal srt srt_stable (fst st) v (VGrow n) Hsrt Hsrt2 Hi Hv) as H. unfold v_does in H.
    assert (vseq w' v = vseq (fst st) v) as Hs.
    { destruct (v_spec _ _ _ _ _ _) as [[a l']|] eqn:Es; [|congruence]. destruct H as (r'&w2&E'&_&Hs&_).
      rewrite E in E'. injection E' as <- <-. rewrite Hs. cbn in Es. destruct (_ <=? _)%Z; by simplify_eq. }
    split; [|done]. rewrite Hs.
    destruct (C131_call st v (VGrow n) r w' Hr Hv (fun x => x) ltac:(done) E) as [H1 H2]. cbn [asks] in H1, H2.
    destruct (decide (length (vseq (fst st) v) + Z.to_nat n <= cap_of (fst st) v)) as [Hd|Hd].
    - destruct (H1 Hd) as (_&_&_&H3). by rewrite H3.
    - apply H2. lia.
  Qed.
  (** Pushing what there is room for, in any number of calls, makes no array. *)
  Theorem C132_pushes vss : forall st v st2, reached st -> v < w_vn (fst st) ->
    length (vseq (fst st) v) + length (concat vss) <= cap_of (fst st) v ->
    steps st (map (fun vs => OCall v (VPush vs)) vss) st2 ->
    made (fst st) (fst st2) 0 /\ stays (fst st) v (fst st2) /\ vseq (fst st2) v = vseq (fst st) v ++ concat vss.
  Proof.
    induction vss as [|vs vss IH]; intros st v st2 Hr Hv Hroom H; cbn [map concat] in *.
    - inversion H; subst. unfold made. rewrite app_nil_r. split; [lia|done].
    - inversion H as [|? ? st1 ? ? H1 H2]; subst. inversion H1 as [|w hs ? ? r w1 Hv1 E|]; subst. cbn [fst] in *.
      destruct (after (w, hs) _ _ _ _ Hr Hv E) as [Hi1 Hv1'].
      assert (Hs : vseq w1 v = vseq w v ++ vs).
      { pose proof (reached_inv _ _ _ _ _ Hsrt Hsrt2 _ Hr) as Hi.
        pose proof (v_step zero growth auto_equal srt srt_stable w v (VPush vs) Hsrt Hsrt2 Hi Hv) as Hd. unfold v_does in Hd. cbn [v_spec] in Hd.
        destruct Hd as (r'&w2&E'&_&Hs&_). rewrite E in E'. by injection E' as <- <-. }
      rewrite app_length in Hroom.
      destruct (C131_call (w, hs) v (VPush vs) r w1 Hr Hv (fun x => x) ltac:(done) E) as [K1 _]. cbn [asks fst] in K1.
      rewrite Hs, app_length in K1. destruct (K1 ltac:(lia)) as [K2 (K3&K4&K5)].
      destruct (IH _ v st2 (reached_steps _ _ _ _ _ _ _ _ Hr (oss_cons _ _ _ _ _ _ _ _ _ _ H1 (oss_nil _ _ _ _ _ _))) Hv1') as (L1&L2&L3);
        [cbn [fst]; rewrite Hs, app_length; lia|done|]. cbn [fst] in *.
      split; [unfold made in *; lia|]. split; [|by rewrite L3, Hs, app_assoc].
      destruct L2 as (L4&L5&L6). split; [congruence|]. split; [congruence|lia].
  Qed.

  (** ** C133 *)
  (** The comment says that Clear shrinks the capacity; it never does, and only Clip ever does. *)
  Theorem C133_Clear_refuted st v r w' : reached st -> v < w_vn (fst st) -> exec v VClear (fst st) = Ok (r, w') ->
    vseq w' v = [] /\ cap_of w' v = cap_of (fst st) v.
  Proof.
    intros Hr Hv E. pose proof (reached_inv _ _ _ _ _ Hsrt Hsrt2 _ Hr) as Hi.
    pose proof (v_step zero growth auto_equal srt srt_stable (fst st) v VClear Hsrt Hsrt2 Hi Hv) as H. unfold v_does in H. cbn [v_spec] in H.
    destruct H as (r'&w2&E'&_&Hs&_). rewrite E in E'. injection E' as <- <-. split; [done|].
    destruct (C131_call st v VClear r w' Hr Hv (fun x => x) ltac:(done) E) as [H1 _]. cbn [asks] in H1. rewrite Hs in H1.
    by destruct (H1 ltac:(cbn; lia)) as (_&_&_&?).
  Qed.
  Theorem C133_never_shrinks st v c r w' : reached st -> v < w_vn (fst st) -> c <> VClip -> exec v c (fst st) = Ok (r, w') ->
    cap_of (fst st) v <= cap_of w' v.
  Proof.
    intros Hr Hv Hcl E. assert (copying c \/ ~ copying c) as [Hc|Hc] by (destruct c; cbn; tauto).
    - by destruct (C131_copying _ _ _ _ _ Hr Hv Hc E) as (_&_&->).
    - destruct (C131_call _ _ _ _ _ Hr Hv Hc Hcl E) as [H1 H2]. cbv zeta in H1, H2.
      destruct (decide (asks c (length (vseq (fst st) v)) (length (vseq w' v)) <= cap_of (fst st) v)) as [Hd|Hd].
      + by destruct (H1 Hd) as (_&_&_&->).
      + destruct (H2 ltac:(lia)) as (_&_&?). lia.
  Qed.
End properties.

(** Examples: after New the capacity is 0; Grow(5) then makes room for five elements, which three
    pushes fill; the sixth moves the elements.  Clear keeps the capacity, Clip gives it up. *)
Notation zexec := (v_exec 0%Z (fun _ c n => Nat.max n (2 * c)) (Some Z.eqb) isort isort).
Notation zreached := (v_reached 0%Z (fun _ c n => Nat.max n (2 * c)) (Some Z.eqb) isort isort).
Definition grown : list (v_op Z) := [ONew None None; OCall 0 (VGrow 5)].
Definition filled : list (v_op Z) := grown ++ map (fun vs => OCall 0 (VPush vs)) [[3; 1]; [4; 1]; [5]]%Z.
Example C128_example : exists st, zreached st /\ vseq (fst st) 0 = [3; 1; 4; 1; 5]%Z /\
  Less (Some Z.ltb) 0 1 2 (fst st) = Ok (true, fst st) /\ Less (Some Z.ltb) 0 2 1 (fst st) = Ok (false, fst st) /\
  Equal (Some Z.eqb) 0 1 3 (fst st) = Ok (true, fst st) /\ IsEmpty 0 (fst st) = Ok (false, fst st).
Proof. apply (run_reached _ _ _ _ _ filled). vm_compute. repeat split; reflexivity. Qed.
Example C131_C132_example : exists st, zreached st /\ cap_of (fst st) 0 = 5 /\ vseq (fst st) 0 = [] /\ w_an (fst st) = 1.
Proof. apply (run_reached _ _ _ _ _ grown). vm_compute. repeat split; reflexivity. Qed.
Example C132_example : exists st, zreached st /\ cap_of (fst st) 0 = 5 /\ vseq (fst st) 0 = [3; 1; 4; 1; 5]%Z /\ w_an (fst st) = 1.
Proof. apply (run_reached _ _ _ _ _ filled). vm_compute. repeat split; reflexivity. Qed.
Example C131_example : exists st, zreached st /\ cap_of (fst st) 0 = 10 /\ vseq (fst st) 0 = [3; 1; 4; 1; 5; 9]%Z /\ w_an (fst st) = 2.
Proof. apply (run_reached _ _ _ _ _ (filled ++ [OCall 0 (VPush [9%Z])])). vm_compute. repeat split; reflexivity. Qed.
Example C133_example : exists st, zreached st /\ cap_of (fst st) 0 = 10 /\ vseq (fst st) 0 = [] /\ w_an (fst st) = 2.
Proof. apply (run_reached _ _ _ _ _ (filled ++ [OCall 0 (VPush [9%Z]); OCall 0 VClear])). vm_compute. repeat split; reflexivity. Qed.
Example C131_Clip_example : exists st, zreached st /\ cap_of (fst st) 0 = 2 /\ vseq (fst st) 0 = [3; 1]%Z /\ w_an (fst st) = 1.
Proof. apply (run_reached _ _ _ _ _ (filled ++ [OCall 0 (VDelete 2 5); OCall 0 VClip])). vm_compute. repeat split; reflexivity. Qed.

Print Assumptions C128_Less. Print Assumptions C128_Equal. Print Assumptions C128_Cmp. Print Assumptions C128_IsEmpty.
Print Assumptions C131_Cap. Print Assumptions C131_call. Print Assumptions C131_copying. Print Assumptions C131_Clip.
Print Assumptions C132_Grow. Print Assumptions C132_pushes. Print Assumptions C133_Clear_refuted. Print Assumptions C133_never_shrinks.
