(** RWMap used by one goroutine: Range with a callback that uses the map; theorems. *)
From Verif Require Import Base GoMap GoMapSpec RwMapAnyModel RwMapAnySpec RwMapAnyTable RwMapAny RwMapAnyRangeSpec RwMapAnyRange RwMapAnyProperties.

Section C203.
  Context {K V : Type} (eqb : K -> K -> bool) (upd : bool) (veq : V -> V -> bool).
  Context (ord : nat -> list (K * nat) -> list (K * nat)).
  Notation range := (RangeCalls eqb upd veq ord).
  Notation after := (after eqb upd veq).

  (** A callback that makes no calls: the Range of RwMapAnyModel.v. *)
  Lemma range_turns_quiet (f : K -> V -> bool) es s : forall seen,
    range_turns eqb upd veq ord (fun seen => ([], match last seen with Some p => f (fst p) (snd p) | None => true end)) es seen s =
    match range_loop f es s with Ok (l, s1) => Some (map (fun p => (p, [])) l, s1) | _ => None end.
  Proof.
    induction es as [|[k e] es IH]; intros seen; [done|]. cbn [range_turns range_loop]. unfold bind at 1. rewrite e_load_eq.
    destruct (a_slot s e) as [| |v]; cbn [val]; [apply IH..|]. cbn [a_run]. rewrite last_snoc. cbn [fst snd].
    destruct (f k v); [|done]. rewrite IH. unfold bind. by rewrite range_loop_ok.
  Qed.
  Theorem C203_quiet (f : K -> V -> bool) s :
    range (fun seen => ([], match last seen with Some p => f (fst p) (snd p) | None => true end)) s =
    match Range ord f s with Ok (l, s1) => Some (map (fun p => (p, [])) l, s1) | _ => None end.
  Proof.
    unfold RangeCalls, Range, bind, gets, iterate, promote, modify, ret, id. destruct (a_amended s); rewrite range_turns_quiet; reflexivity.
  Qed.

  (** C203. [l] is what a built-in map would contain after the calls so far. *)
  Theorem C203_returns cb (cs : list (a_call K V)) rs s :
    per eqb -> (forall n l, ord n l ≡ₚ l) -> a_run eqb upd veq ord zero_map cs = Some (rs, s) ->
    exists ts s', range cb s = Some (ts, s') /\ apart eqb (map fst ts) /\
      forall c, exists r s'', a_exec eqb upd veq ord c s' = Ok (r, s'') /\
        agrees eqb c r (snd (plain eqb upd veq c (after (after [] cs) (calls_of ts)))).
  Proof.
    intros P Hord E. pose proof (reached eqb P upd veq ord Hord cs rs s E) as H.
    destruct (RangeCalls_ok eqb P upd ord Hord veq cb s _ H) as (ts&s'&E1&H1&Hap&_). exists ts, s'. split; [done|]. split; [done|].
    intros c. destruct (step eqb P upd veq ord Hord s' _ c H1) as (r&s''&E2&_&Hr). by exists r, s''.
  Qed.
  Theorem C203_in_the_map cb (cs : list (a_call K V)) rs s ts1 k v cs1 ts2 s' :
    per eqb -> (forall n l, ord n l ≡ₚ l) -> a_run eqb upd veq ord zero_map cs = Some (rs, s) ->
    range cb s = Some (ts1 ++ ((k, v), cs1) :: ts2, s') -> AClear ∉ calls_of ts1 ->
    holds eqb (after (after [] cs) (calls_of ts1)) k v.
  Proof.
    intros P Hord E Er Hn. pose proof (reached eqb P upd veq ord Hord cs rs s E) as H.
    destruct (RangeCalls_ok eqb P upd ord Hord veq cb s _ H) as (ts&s1&E1&H1&_&Hin&_). rewrite Er in E1. injection E1 as <- <-.
    by eapply Hin.
  Qed.
  Theorem C203_all_shown cb (cs : list (a_call K V)) rs s ts s' k v :
    per eqb -> (forall n l, ord n l ≡ₚ l) -> a_run eqb upd veq ord zero_map cs = Some (rs, s) ->
    range cb s = Some (ts, s') -> (forall seen, snd (cb seen) = true) ->
    mlookup eqb (after [] cs) k = Some v -> Forall (fun c => ~ removes eqb k c) (calls_of ts) ->
    exists k' v' cs', ((k', v'), cs') ∈ ts /\ eqb k' k = true.
  Proof.
    intros P Hord E Er Hg Hf Hall. pose proof (reached eqb P upd veq ord Hord cs rs s E) as H.
    destruct (RangeCalls_ok eqb P upd ord Hord veq cb s _ H) as (ts1&s1&E1&H1&_&_&Hsh). rewrite Er in E1. injection E1 as <- <-.
    apply Hsh; [done| |done]. unfold RwMapAnyRangeSpec.after in Hf. congruence.
  Qed.
End C203.

(** A callback that deletes, stores again and adds keys. *)
Definition ex_before : list (a_call float_key nat) := [AStore (Num 1) 1; AStore NaN 2; AStore (Zero false) 3; AStore (Num 4) 4].
Definition ex_cb : callback float_key nat := fun seen =>
  (match length seen with
   | 1 => [ADelete (Num 1); ADelete (Num 4); AStore (Zero true) 5; AStore (Num 6) 6; AStore NaN 7; ALoad (Num 6); ALoad (Num 6); ALoad (Num 6)]
   | 2 => [AStore (Num 1) 8; ASlowLen]
   | _ => []
   end, true).
Example ex_range :
  match a_run float_eqb false Nat.eqb (fun _ l => l) zero_map ex_before with
  | Some (_, s) =>
      match RangeCalls float_eqb false Nat.eqb (fun _ l => l) ex_cb s with
      | Some (ts, s') => map fst ts = [(Num 1, 1); (NaN, 2); (Zero false, 5)] /\ a_len s' = 5%Z /\ AClear ∉ calls_of ts
      | None => False
      end
  | None => False
  end.
Proof. vm_compute. split; [reflexivity|]. split; [reflexivity|]. intros H. repeat (apply elem_of_cons in H as [H|H]; [discriminate|]). by apply elem_of_nil in H. Qed.
(** The key 0 is never removed. *)
Example ex_range_stays :
  mlookup float_eqb (after float_eqb false Nat.eqb [] ex_before) (Zero true) = Some 3 /\
  match a_run float_eqb false Nat.eqb (fun _ l => l) zero_map ex_before with
  | Some (_, s) =>
      match RangeCalls float_eqb false Nat.eqb (fun _ l => l) ex_cb s with
      | Some (ts, s') => Forall (fun c => ~ removes float_eqb (Zero true) c) (calls_of ts)
      | None => False
      end
  | None => False
  end.
Proof. split; [reflexivity|]. vm_compute. repeat constructor; done. Qed.

(** C204. After Clear the callback still gets the pairs of before, also under keys that have a new value. *)
Theorem C204_in_the_map_refuted :
  exists (cb : callback float_key nat) cs rs s ts1 k v cs1 ts2 s',
    a_run float_eqb false Nat.eqb (fun _ l => l) zero_map cs = Some (rs, s) /\
    RangeCalls float_eqb false Nat.eqb (fun _ l => l) cb s = Some (ts1 ++ ((k, v), cs1) :: ts2, s') /\
    float_eqb k k = true /\ v = 2 /\
    mlookup float_eqb (after float_eqb false Nat.eqb (after float_eqb false Nat.eqb [] cs) (calls_of ts1)) k = Some 9 /\
    calls_of ts1 = [AClear; AStore k 9].
Proof.
  exists (fun seen => (match length seen with 1 => [AClear; AStore (Num 2) 9] | _ => [] end, true)), [AStore (Num 1) 1; AStore (Num 2) 2].
  eexists _, _, [((Num 1, 1), [AClear; AStore (Num 2) 9])], (Num 2), 2, [], [], _.
  split; [vm_compute; reflexivity|]. split; [vm_compute; reflexivity|]. done.
Qed.

Print Assumptions C203_quiet.
Print Assumptions C203_returns.
Print Assumptions C203_in_the_map.
Print Assumptions C203_all_shown.
Print Assumptions C204_in_the_map_refuted.
