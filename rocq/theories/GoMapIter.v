(** The range loop over a Go map whose body may change that map, for set.Range
    (/repo/set/set.go:85-91) and GenMap.Range (/repo/genmap/genmap.go:54-61).

    In GoMap.v a loop goes over the entries that were there when it started. Here the loop
    follows the Go specification ("For statements with range clause"): the order is not
    specified; an entry removed before it is reached is not produced; an entry created during
    the iteration may be produced or skipped; any other entry is produced exactly once, with
    the value it has at that moment. *)
From Verif Require Import Base GoMap.

Section iter.
  Context {K V C R : Type} (eqb : K -> K -> bool).
  (** [C] are the calls a body may make, [R] their results, [step] what they do. *)
  Context (step : C -> world K V -> R * world K V).
  Notation W := (world K V).

  (** What a callback does: make calls one after the other, each depending on the results so
      far, or start a Range of its own (of the same map or another one), with its own callback. *)
  Inductive prog (A : Type) : Type :=
  | PRet (a : A)
  | PDo (c : C) (k : R -> prog A)
  | PRange (S : Type) (m : ref) (f : K -> V -> S -> prog (bool * S)) (s : S)
           (k : bool * S -> prog A).

  Definition present (m : ref) (k : K) (w : W) : bool :=
    match mlookup eqb (content w m) k with Some _ => true | None => false end.

  (** One turn of the loop: the entry produced, and the state of the maps after each call the
      body makes. *)
  Record turn := Turn { t_key : K; t_val : V; t_worlds : list W }.

  (** A loop between two turns: the maps; the keys that were there at the start, have not been
      removed since and are still to come; the keys produced and not removed since; the
      variables the callback captures. *)
  Record loop (S : Type) := Loop { l_world : W; l_todo : list K; l_done : list K; l_vars : S }.

  (** The keys of [l] that are in the map in all the states [ws]. *)
  Definition keep (m : ref) (ws : list W) (l : list K) : list K :=
    List.filter (fun k => forallb (present m k) ws) l.
  Definition other_keys (k : K) (l : list K) : list K :=
    List.filter (fun k' => negb (eqb k' k)) l.

  (** The loop may produce the entry (k, v) now: it is in the map and was not produced since
      it was created. *)
  Definition may_come {S} (m : ref) (st : loop S) (k : K) (v : V) : Prop :=
    (k, v) ∈ content (l_world _ st) m /\ forall k', k' ∈ l_done _ st -> eqb k' k = false.

  Definition loop_start {S} (m : ref) (w : W) (s : S) : loop S :=
    Loop S w (map fst (content w m)) [] s.
  Definition loop_next {S} (m : ref) (st : loop S) (k : K) (ws : list W) (w : W) (s : S) : loop S :=
    Loop S w (keep m ws (other_keys k (l_todo _ st))) (keep m ws (k :: l_done _ st)) s.

  (** [exec p w ws a w']: started with the maps [w], [p] returns [a] and leaves [w']; [ws] are
      the states after each call.
      [turns m f st ts st']: the turns [ts] take the loop from [st] to [st'].
      [range m f w s ts r w']: the whole Range: its turns, its result (RangeAll and the
      captured variables; set.Range drops the boolean) and the maps afterwards.
      genmap.go:54-61, set.go:85-91 *)
  Inductive exec : forall A : Type, prog A -> W -> list W -> A -> W -> Prop :=
  | x_ret A (a : A) w : exec A (PRet A a) w [] a w
  | x_do A c (k : R -> prog A) w r w1 ws a w2 :
      step c w = (r, w1) -> exec A (k r) w1 ws a w2 -> exec A (PDo A c k) w (w1 :: ws) a w2
  | x_range A S m (f : K -> V -> S -> prog (bool * S)) s (k : bool * S -> prog A) w ts r w1 ws a w2 :
      range S m f w s ts r w1 -> exec A (k r) w1 ws a w2 ->
      exec A (PRange A S m f s k) w (concat (map t_worlds ts) ++ ws) a w2
  with turns : forall S : Type, ref -> (K -> V -> S -> prog (bool * S)) ->
                 loop S -> list turn -> loop S -> Prop :=
  | t_none S m (f : K -> V -> S -> prog (bool * S)) st : turns S m f st [] st
  | t_turn S m (f : K -> V -> S -> prog (bool * S)) st k v ws s' w' ts st' :
      may_come m st k v ->
      exec (bool * S) (f k v (l_vars _ st)) (l_world _ st) ws (true, s') w' ->
      turns S m f (loop_next m st k ws w' s') ts st' ->
      turns S m f st (Turn k v ws :: ts) st'
  with range : forall S : Type, ref -> (K -> V -> S -> prog (bool * S)) ->
                 W -> S -> list turn -> bool * S -> W -> Prop :=
  | r_end S m (f : K -> V -> S -> prog (bool * S)) w s ts st :
      turns S m f (loop_start m w s) ts st -> l_todo _ st = [] ->
      range S m f w s ts (true, l_vars _ st) (l_world _ st)
  | r_break S m (f : K -> V -> S -> prog (bool * S)) w s ts st k v ws s' w' :
      turns S m f (loop_start m w s) ts st -> may_come m st k v ->
      exec (bool * S) (f k v (l_vars _ st)) (l_world _ st) ws (false, s') w' ->
      range S m f w s (ts ++ [Turn k v ws]) (false, s') w'.
End iter.
Arguments PRet {K V C R A}. Arguments PDo {K V C R A}. Arguments PRange {K V C R A S}.
Arguments Turn {K V}. Arguments t_key {K V}. Arguments t_val {K V}. Arguments t_worlds {K V}.
Arguments Loop {K V S}. Arguments l_world {K V S}. Arguments l_todo {K V S}.
Arguments l_done {K V S}. Arguments l_vars {K V S}.
Arguments exec {K V C R} eqb step {A}. Arguments turns {K V C R} eqb step {S}.
Arguments range {K V C R} eqb step {S}.
