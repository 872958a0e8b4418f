(** hashring: CRC-32 tells apart texts that differ in four neighbouring bytes. *)
From Coq Require Import ZifyBool ZifyNat.
From Coq Require Import String Ascii.
From Verif Require Import Base HashRingModel HashRingSpec HashRingCrcSpec.
From stdpp Require Import pretty.

(** * Texts *)
Lemma split_at_dash {A} (x : A) l l' d d' : l ++ x :: d = l' ++ x :: d' -> x ∉ d -> x ∉ d' -> l = l' /\ d = d'.
Proof.
  revert l'. induction l as [|a l IH]; intros [|a' l'] E Hd Hd'; cbn in E.
  - by injection E as ->.
  - injection E as -> ->. destruct Hd. apply elem_of_app. right. left.
  - injection E as -> E. destruct Hd'. rewrite <- E. apply elem_of_app. right. left.
  - injection E as -> E. by destruct (IH l' E Hd Hd') as [-> ->].
Qed.
Lemma list_of_append s s' : list_ascii_of_string (String.append s s') = list_ascii_of_string s ++ list_ascii_of_string s'.
Proof. induction s as [|a s IH]; [done|]. exact (f_equal (cons a) IH). Qed.
Lemma list_of_inj s s' : list_ascii_of_string s = list_ascii_of_string s' -> s = s'.
Proof. intros E. rewrite <- (string_of_list_ascii_of_string s), E. apply string_of_list_ascii_of_string. Qed.

Local Notation dash := ("-"%char).
Lemma pretty_go_no_dash x s : dash ∉ list_ascii_of_string s -> dash ∉ list_ascii_of_string (pretty_N_go x s).
Proof.
  revert s. induction (N.lt_wf_0 x) as [x _ IH]. intros s Hs.
  destruct (decide (x = 0%N)) as [->|Hx]; [by rewrite pretty_N_go_0|].
  rewrite pretty_N_go_step by lia. apply IH; [apply N.div_lt; lia|]. cbn. rewrite elem_of_cons. intros [E|]; [|done].
  unfold pretty_N_char in E. repeat case_match; discriminate E.
Qed.
Lemma pretty_no_dash i : (0 <= i)%Z -> dash ∉ list_ascii_of_string (pretty i).
Proof.
  intros Hi. destruct i as [|p|p]; [|apply pretty_go_no_dash|lia].
  - vm_compute. intros H. by apply elem_of_list_singleton in H.
  - apply not_elem_of_nil.
Qed.
Lemma label_inj k k' i i' : (0 <= i)%Z -> (0 <= i')%Z -> label k i = label k' i' -> k = k' /\ i = i'.
Proof.
  intros Hi Hi' E. apply (f_equal list_ascii_of_string) in E. unfold label in E. rewrite !list_of_append in E.
  apply split_at_dash in E as [E1 E2]; [|by apply pretty_no_dash..].
  split; [by apply list_of_inj|]. apply list_of_inj in E2. by apply (inj pretty).
Qed.

(** * CRC-32 *)
Local Open Scope Z_scope.
Definition word32 (c : Z) : Prop := 0 <= c < 2 ^ 32.
Lemma word32_lxor a b : word32 a -> word32 b -> word32 (Z.lxor a b).
Proof.
  unfold word32. intros [H1 H2] [H3 H4]. assert (H5 : 0 <= Z.lxor a b) by (apply Z.lxor_nonneg; lia). split; [done|].
  destruct (decide (Z.lxor a b = 0)) as [->|Hn]; [lia|]. apply Z.log2_lt_pow2; [lia|].
  pose proof (Z.log2_lxor a b H1 H3). 
  assert (forall x, 0 <= x < 2 ^ 32 -> Z.log2 x < 32).
  { intros x Hx. destruct (decide (x = 0)) as [->|]; [cbn; lia|]. apply Z.log2_lt_pow2; lia. }
  pose proof (H0 a). pose proof (H0 b). lia.
Qed.
Lemma shiftr_1 c : Z.shiftr c 1 = c / 2.
Proof. by rewrite Z.shiftr_div_pow2. Qed.
Lemma half c : c = 2 * (c / 2) + (if Z.odd c then 1 else 0).
Proof. rewrite (Z.div_mod c 2) at 1 by lia. by rewrite Zmod_odd. Qed.
Lemma poly_word : word32 0xedb88320.
Proof. unfold word32. lia. Qed.
Lemma crc_bit_word c : word32 c -> word32 (crc_bit c).
Proof.
  intros Hc. assert (word32 (c / 2)) by (unfold word32 in *; split; [apply Z.div_pos; lia|apply Z.div_lt_upper_bound; lia]).
  unfold crc_bit. rewrite shiftr_1. destruct (Z.odd c); [|done]. apply word32_lxor; [done|apply poly_word].
Qed.
Lemma crc_bit_top c : word32 c -> Z.testbit (crc_bit c) 31 = Z.odd c.
Proof.
  intros Hc. assert (Ht : Z.testbit (Z.shiftr c 1) 31 = false).
  { rewrite Z.shiftr_spec by lia. replace (31 + 1) with 32 by lia.
    destruct (decide (c = 0)) as [->|]; [apply Z.testbit_0_l|]. apply Z.bits_above_log2; [apply Hc|]. apply Z.log2_lt_pow2; unfold word32 in Hc; lia. }
  unfold crc_bit. destruct (Z.odd c); [|done]. by rewrite Z.lxor_spec, Ht.
Qed.
Lemma crc_bit_inj a b : word32 a -> word32 b -> crc_bit a = crc_bit b -> a = b.
Proof.
  intros Ha Hb E. pose proof (crc_bit_top a Ha) as H1. pose proof (crc_bit_top b Hb) as H2. rewrite E in H1.
  assert (Ho : Z.odd a = Z.odd b) by congruence. rewrite (half a), (half b), Ho. unfold crc_bit in E. rewrite !shiftr_1, Ho in E.
  destruct (Z.odd b); [|by rewrite E]. apply (f_equal (fun x => Z.lxor x 0xedb88320)) in E.
  by rewrite !Z.lxor_assoc, Z.lxor_nilpotent, !Z.lxor_0_r in E; rewrite E.
Qed.
Lemma iter_word n c : word32 c -> word32 (Nat.iter n crc_bit c).
Proof. intros Hc. induction n; [done|]. by apply crc_bit_word. Qed.
Lemma iter_inj n a b : word32 a -> word32 b -> Nat.iter n crc_bit a = Nat.iter n crc_bit b -> a = b.
Proof. intros Ha Hb. induction n; [done|]. intros E. apply IHn, crc_bit_inj; [by apply iter_word..|done]. Qed.

Lemma crc_bit_high x y : crc_bit (Z.lxor x (Z.shiftl y 1)) = Z.lxor (crc_bit x) y.
Proof.
  assert (Ho : Z.odd (Z.lxor x (Z.shiftl y 1)) = Z.odd x).
  { rewrite <- !Z.bit0_odd, Z.lxor_spec, Z.shiftl_spec_low by lia. apply xorb_false_r. }
  assert (Hs : Z.shiftr (Z.lxor x (Z.shiftl y 1)) 1 = Z.lxor (Z.shiftr x 1) y).
  { rewrite Z.shiftr_lxor, Z.shiftr_shiftl_l, Z.shiftl_0_r by lia. done. }
  unfold crc_bit. rewrite Ho, Hs. destruct (Z.odd x); [|done].
  by rewrite !Z.lxor_assoc, (Z.lxor_comm y).
Qed.
Lemma iter_high n x y : Nat.iter n crc_bit (Z.lxor x (Z.shiftl y (Z.of_nat n))) = Z.lxor (Nat.iter n crc_bit x) y.
Proof.
  revert x y. induction n as [|n IH]; intros x y; [by cbn; rewrite Z.shiftl_0_r|].
  replace (Z.shiftl y (Z.of_nat (S n))) with (Z.shiftl (Z.shiftl y 1) (Z.of_nat n)) by (rewrite Z.shiftl_shiftl by lia; f_equal; lia).
  cbn [Nat.iter nat_rect]. change (crc_bit (Nat.iter n crc_bit (Z.lxor x (Z.shiftl (Z.shiftl y 1) (Z.of_nat n)))) = Z.lxor (crc_bit (Nat.iter n crc_bit x)) y).
  rewrite IH. apply crc_bit_high.
Qed.

(** The bytes as one number, the first byte the lowest. *)
Fixpoint word (s : string) : Z :=
  match s with EmptyString => 0 | String b s => Z.lxor (Z.of_N (N_of_ascii b)) (Z.shiftl (word s) 8) end.
Lemma byte_range b : 0 <= Z.of_N (N_of_ascii b) < 2 ^ 8.
Proof. pose proof (N_ascii_bounded b). lia. Qed.
Lemma word_lor b s : word (String b s) = Z.of_N (N_of_ascii b) + 2 ^ 8 * word s.
Proof.
  cbn [word]. rewrite Z.shiftl_mul_pow2 by lia. rewrite (Z.mul_comm (word s)).
  rewrite <- Z.add_nocarry_lxor; [done|]. apply Z.bits_inj'. intros n Hn. rewrite Z.land_spec, Z.bits_0.
  pose proof (byte_range b). destruct (decide (n < 8)).
  - rewrite (Z.mul_comm (2 ^ 8)), Z.mul_pow2_bits_low by lia. apply andb_false_r.
  - replace (Z.testbit (Z.of_N (N_of_ascii b)) n) with false; [done|]. symmetry.
    destruct (decide (Z.of_N (N_of_ascii b) = 0)) as [->|]; [apply Z.testbit_0_l|]. apply Z.bits_above_log2; [lia|].
    enough (Z.log2 (Z.of_N (N_of_ascii b)) < 8) by lia. apply Z.log2_lt_pow2; lia.
Qed.
Lemma word_range s : 0 <= word s < 2 ^ (8 * Z.of_nat (String.length s)).
Proof.
  induction s as [|b s IH]; [cbn; lia|]. rewrite word_lor. pose proof (byte_range b). cbn [String.length].
  replace (8 * Z.of_nat (S (String.length s))) with (8 + 8 * Z.of_nat (String.length s)) by lia. rewrite Z.pow_add_r by lia. nia.
Qed.
Lemma word_inj s s' : String.length s = String.length s' -> word s = word s' -> s = s'.
Proof.
  revert s'. induction s as [|b s IH]; intros [|b' s'] Hl; try discriminate Hl; [done|]. rewrite !word_lor. intros E.
  pose proof (byte_range b). pose proof (byte_range b').
  assert (word s = word s') by lia. rewrite (IH s'); [|by injection Hl|done].
  assert (Hb : N_of_ascii b = N_of_ascii b') by lia. by rewrite <- (ascii_N_embedding b), Hb, ascii_N_embedding.
Qed.

Lemma crc_bytes_app c a b : crc_bytes c (String.append a b) = crc_bytes (crc_bytes c a) b.
Proof. revert c. induction a as [|x a IH]; intros c; [done|]. apply IH. Qed.
Lemma crc_bytes_word c s : crc_bytes c s = Nat.iter (8 * String.length s) crc_bit (Z.lxor c (word s)).
Proof.
  revert c. induction s as [|b s IH]; intros c; [by cbn; rewrite Z.lxor_0_r|].
  cbn [crc_bytes]. rewrite IH. unfold crc_byte. change 8 with (Z.of_nat 8).
  replace (8 * String.length (String b s))%nat with (8 * String.length s + 8)%nat by (cbn [String.length]; lia).
  rewrite Nat.iter_add. f_equal. cbn [word]. change (Z.shiftl (word s) 8) with (Z.shiftl (word s) (Z.of_nat 8)).
  rewrite <- Z.lxor_assoc, iter_high. done.
Qed.
Lemma crc_word c s : word32 c -> word32 (crc_bytes c s).
Proof.
  revert c. induction s as [|b s IH]; intros c Hc; [done|]. apply IH, iter_word, word32_lxor; [done|].
  pose proof (byte_range b). unfold word32. lia.
Qed.
Lemma crc_bytes_inj c c' s : word32 c -> word32 c' -> crc_bytes c s = crc_bytes c' s -> c = c'.
Proof.
  revert c c'. induction s as [|b s IH]; intros c c' Hc Hc' E; [done|].
  assert (Hb : word32 (Z.of_N (N_of_ascii b))) by (pose proof (byte_range b); unfold word32; lia).
  apply IH, iter_inj in E; [|by try apply iter_word; apply word32_lxor..].
  apply (f_equal (fun x => Z.lxor x (Z.of_N (N_of_ascii b)))) in E. by rewrite !Z.lxor_assoc, Z.lxor_nilpotent, !Z.lxor_0_r in E.
Qed.
Lemma start_word : word32 0xffffffff.
Proof. unfold word32. lia. Qed.

Lemma crc32_range s : 0 <= crc32 s < 2 ^ 32.
Proof. apply word32_lxor; [apply crc_word|]; apply start_word. Qed.
Lemma crc32_burst pre w w' suf : String.length w = String.length w' -> (String.length w <= 4)%nat ->
  crc32 (String.append pre (String.append w suf)) = crc32 (String.append pre (String.append w' suf)) -> w = w'.
Proof.
  intros Hl H4 E. unfold crc32 in E. apply (f_equal (fun x => Z.lxor x 0xffffffff)) in E.
  rewrite !Z.lxor_assoc, Z.lxor_nilpotent, !Z.lxor_0_r, !crc_bytes_app in E.
  assert (Hp : word32 (crc_bytes 0xffffffff pre)) by apply crc_word, start_word. revert E Hp.
  generalize (crc_bytes 0xffffffff pre). intros c E Hp.
  apply crc_bytes_inj in E; [|by apply crc_word..]. rewrite !crc_bytes_word, <- Hl in E.
  assert (Hw : forall v, (String.length v <= 4)%nat -> word32 (word v)).
  { intros v Hv. pose proof (word_range v). unfold word32. split; [lia|]. eapply Z.lt_le_trans; [apply H|]. apply Z.pow_le_mono_r; lia. }
  apply iter_inj in E; [|apply word32_lxor; [done|apply Hw; lia]..].
  apply word_inj; [done|]. apply (f_equal (Z.lxor c)) in E.
  by rewrite <- !Z.lxor_assoc, Z.lxor_nilpotent, !Z.lxor_0_l in E.
Qed.

(** * Names *)
Lemma append_assoc a b c : String.append (String.append a b) c = String.append a (String.append b c).
Proof. induction a as [|x a IH]; [done|]. exact (f_equal (String x) IH). Qed.
Lemma append_length a b : String.length (String.append a b) = (String.length a + String.length b)%nat.
Proof. induction a as [|x a IH]; [done|]. exact (f_equal S IH). Qed.
Lemma append_inj_l a a' b b' : String.length a = String.length a' -> String.append a b = String.append a' b' -> a = a' /\ b = b'.
Proof.
  revert a'. induction a as [|x a IH]; intros [|x' a'] Hl E; try discriminate Hl; [done|].
  injection Hl as Hl. cbn in E. injection E as -> E. by destruct (IH a' Hl E) as [-> ->].
Qed.
Lemma digit i : 0 <= i < 10 -> String.length (pretty i) = 1%nat.
Proof. intros Hi. assert (i = 0 \/ i = 1 \/ i = 2 \/ i = 3 \/ i = 4 \/ i = 5 \/ i = 6 \/ i = 7 \/ i = 8 \/ i = 9) as H by lia. by repeat destruct H as [->|H]; subst. Qed.

Lemma hash_label k i : hashKey_string k i = crc32 (label k i).
Proof. done. Qed.
Lemma same_index pre w w' suf i : String.length w = String.length w' -> (String.length w <= 4)%nat ->
  hashKey_string (String.append pre (String.append w suf)) i = hashKey_string (String.append pre (String.append w' suf)) i -> w = w'.
Proof. intros Hl H4. rewrite !hash_label. unfold label. rewrite !append_assoc. by apply crc32_burst. Qed.
Lemma same_node n i i' : 0 <= i -> 0 <= i' -> String.length (pretty i) = String.length (pretty i') -> (String.length (pretty i) <= 4)%nat ->
  hashKey_string n i = hashKey_string n i' -> i = i'.
Proof.
  intros Hi Hi' Hl H4 E. rewrite !hash_label in E. unfold label in E. rewrite <- !append_assoc in E.
  apply (inj pretty). eapply (crc32_burst (String.append n "-") _ _ ""); [done|done|].
  assert (Hn : forall s, String.append s "" = s) by (induction s as [|x s IH]; [done|]; exact (f_equal (String x) IH)).
  by rewrite !Hn.
Qed.
Lemma alike_tell pre k n n' i i' : alike pre k n -> alike pre k n' -> (k <= 2)%nat -> 0 <= i < 10 -> 0 <= i' < 10 ->
  hashKey_string n i = hashKey_string n' i' -> n = n' /\ i = i'.
Proof.
  intros (w & Hw & ->) (w' & Hw' & ->) Hk Hi Hi' E. rewrite !hash_label in E. unfold label in E. rewrite !append_assoc in E.
  assert (Hn : forall s, String.append s "" = s) by (induction s as [|x s IH]; [done|]; exact (f_equal (String x) IH)).
  set (t := String.append w (String.append "-" (pretty i))) in E. set (t' := String.append w' (String.append "-" (pretty i'))) in E.
  assert (Hl : String.length t = (k + 2)%nat) by (unfold t; rewrite !append_length, digit by done; cbn; lia).
  assert (Hl' : String.length t' = (k + 2)%nat) by (unfold t'; rewrite !append_length, digit by done; cbn; lia).
  rewrite <- (Hn t), <- (Hn t') in E. apply crc32_burst in E; [|lia..]. subst t t'.
  apply append_inj_l in E as [-> E]; [|lia]. split; [done|]. apply append_inj_l in E as [_ E]; [|done]. by apply (inj pretty).
Qed.
Lemma alike_free pre k replicas (P : string -> Prop) : (forall n, P n -> alike pre k n) -> (k <= 2)%nat -> replicas <= 10 ->
  collision_free hashKey_string replicas P.
Proof.
  intros HP Hk Hr n m h [Hn (i & Hi & ->)] [Hm (j & Hj & E)]. apply HP in Hn, Hm.
  by destruct (alike_tell pre k n m i j Hn Hm Hk) as [-> _]; [lia..|done|].
Qed.
Lemma alike_key pre k replicas (P : string -> Prop) key : (forall n, P n -> alike pre k n) -> alike pre k key -> (k <= 2)%nat ->
  replicas <= 10 -> key_free hashKey_string replicas P key.
Proof.
  intros HP Hkey Hk Hr n [Hn (i & Hi & E)]. apply HP in Hn.
  by destruct (alike_tell pre k key n 0 i Hkey Hn Hk) as [-> _]; [lia..|done|].
Qed.
