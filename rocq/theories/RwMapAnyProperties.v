(** RWMap used by one goroutine, for every key type: theorems. *)
From Verif Require Import Base GoMap GoMapSpec RwMapAnyModel RwMapAnySpec RwMapAnyTable RwMapAny.

(** Floats as keys, as far as [==] sees them. *)
Inductive float_key := NaN | Zero (negative : bool) | Num (n : nat).
Definition float_eqb (x y : float_key) : bool :=
  match x, y with Zero _, Zero _ => true | Num n, Num m => Nat.eqb n m | _, _ => false end.
Lemma float_per : per float_eqb.
Proof.
  split.
  - intros [| |n] [| |m]; cbn; try done. rewrite !Nat.eqb_eq. done.
  - intros [| |n] [| |m] [| |o]; cbn; try done. rewrite !Nat.eqb_eq. congruence.
Qed.

Section C201.
  Context {K V : Type} (eqb : K -> K -> bool) (upd : bool) (veq : V -> V -> bool).
  Context (ord : nat -> list (K * nat) -> list (K * nat)).

  (** C201. *)
  Theorem C201_as_built_in_map (cs : list (a_call K V)) :
    per eqb -> (forall n l, ord n l ≡ₚ l) ->
    exists rs s, a_run eqb upd veq ord zero_map cs = Some (rs, s) /\
      Forall3 (agrees eqb) cs rs (fst (plain_run eqb upd veq [] cs)).
  Proof. intros P Hord. destruct (history eqb P upd veq ord Hord cs _ _ (same_zero eqb)) as (rs&s&E&_&H). by exists rs, s. Qed.

  (** C202. *)
  Theorem C202_never_found (cs : list (a_call K V)) rs s k :
    per eqb -> (forall n l, ord n l ≡ₚ l) -> a_run eqb upd veq ord zero_map cs = Some (rs, s) -> eqb k k = false ->
    let run := a_exec eqb upd veq ord in
    (exists s', run (ALoad k) s = Ok (AOpt None, s') /\ a_len s' = a_len s) /\
    (exists s', run (ALoadAndDelete k) s = Ok (AOpt None, s') /\ a_len s' = a_len s) /\
    (forall old new, exists s', run (ACompareAndSwap k old new) s = Ok (ABool false, s') /\ a_len s' = a_len s) /\
    (forall old, exists s', run (ACompareAndDelete k old) s = Ok (ABool false, s') /\ a_len s' = a_len s) /\
    (forall v, exists s', run (ASwap k v) s = Ok (AOpt None, s') /\ a_len s' = (a_len s + 1)%Z) /\
    (forall v, exists s', run (ALoadOrStore k v) s = Ok (AVal v false, s') /\ a_len s' = (a_len s + 1)%Z).
  Proof.
    intros P Hord E Ek run. pose proof (reached eqb P upd veq ord Hord cs rs s E) as (H&_).
    pose proof (odd_missing eqb P s k H Ek) as Hn. unfold run. cbn [a_exec]. unfold bind.
    split_and!.
    - destruct (Load_ok eqb P s k H) as (s'&E1&_&_&_&Hl). rewrite Hn in E1. rewrite E1. by exists s'.
    - destruct (LoadAndDelete_ok eqb P veq s k H) as (s'&E1&_&_&Hl). rewrite Hn in E1, Hl. rewrite E1. exists s'. split; [done|]. rewrite Hl. cbn. lia.
    - intros old new. destruct (CompareAndSwap_ok eqb P veq s k old new H) as (s'&E1&_&_&Hl). rewrite Hn in E1. cbn [matches] in E1. rewrite E1. by exists s'.
    - intros old. destruct (CompareAndDelete_ok eqb P veq ord Hord s k old H) as (s'&E1&_&_&Hl). rewrite Hn in E1, Hl. cbn [matches] in E1, Hl. rewrite E1. exists s'. split; [done|]. rewrite Hl. lia.
    - intros v. destruct (Swap_ok eqb P upd veq ord Hord s k v H) as (s'&E1&_&_&Hl). rewrite Hn in E1, Hl. rewrite E1. by exists s'.
    - intros v. destruct (LoadOrStore_ok eqb P upd veq ord Hord s k v H) as (s'&E1&_&_&Hl). rewrite Hn in E1, Hl. rewrite E1. by exists s'.
  Qed.
  Theorem C202_kept_until_Clear (cs : list (a_call K V)) rs s :
    per eqb -> (forall n l, ord n l ≡ₚ l) -> a_run eqb upd veq ord zero_map cs = Some (rs, s) ->
    exists seen s', a_exec eqb upd veq ord (ARange (fun _ _ => true)) s = Ok (ASeen seen, s') /\
      List.filter (odd eqb) seen ≡ₚ kept eqb [] cs.
  Proof.
    intros P Hord E. pose proof (reached eqb P upd veq ord Hord cs rs s E) as (H&_).
    destruct (Range_ok eqb ord Hord s (fun _ _ => true) H) as (s'&l1&E1&_). eexists _, s'. cbn [a_exec]. unfold bind. rewrite E1.
    split; [reflexivity|]. by eapply (odd_shown eqb P upd veq ord Hord).
  Qed.
End C201.

(** A history with NaN, 0 and -0, that goes through promotion, expunging and unexpunging. *)
Definition ex_calls : list (a_call float_key nat) :=
  [AStore NaN 1; AStore (Zero false) 2; ALoad (Zero true); AStore NaN 3; ALoad NaN; ALoadAndDelete (Zero true); ALen;
   ARange (fun _ _ => true); ADelete NaN; AStore (Num 5) 4; AStore (Zero true) 6; ASwap (Zero false) 7; ALoad (Num 5);
   ACompareAndSwap (Zero false) 7 8; ALoadOrStore NaN 9; ALen; ARange (fun _ v => negb (Nat.eqb v 8)); AClear; AStore NaN 10; ASlowLen].
Example ex_history :
  match a_run float_eqb false Nat.eqb (fun _ l => l) zero_map ex_calls with
  | Some (rs, _) => rs = [AUnit; AUnit; AOpt (Some 2); AUnit; AOpt None; AOpt (Some 2); AInt 2;
      ASeen [(NaN, 1); (NaN, 3)]; AUnit; AUnit; AUnit; AOpt (Some 6); AOpt (Some 4);
      ABool true; AVal 9 false; AInt 5; ASeen [(NaN, 1); (NaN, 3); (Num 5, 4); (Zero true, 8)]; AUnit; AUnit; AInt 1]
  | None => False
  end.
Proof. vm_compute. reflexivity. Qed.
Example ex_plain : exists rs s, a_run float_eqb false Nat.eqb (fun _ l => l) zero_map ex_calls = Some (rs, s) /\
  Forall3 (agrees float_eqb) ex_calls rs (fst (plain_run float_eqb false Nat.eqb [] ex_calls)).
Proof. by apply C201_as_built_in_map; [apply float_per|]. Qed.
Example ex_kept : kept float_eqb [] (take 17 ex_calls) = [(NaN, 9); (NaN, 3); (NaN, 1)] /\ kept float_eqb [] ex_calls = [(NaN, 10)].
Proof. split; reflexivity. Qed.

Print Assumptions C201_as_built_in_map.
Print Assumptions C202_never_found.
Print Assumptions C202_kept_until_Clear.
