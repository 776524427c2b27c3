(** C62: stacking or concatenating a stream gives that of all its slices at once. *)
From Coq Require Import List Bool Arith ZArith Lia.
From Verif Require Import StackModel StackSpec StackProofs.
Import ListNotations.

Section Properties.
Variables (value E : Type).
Variable rank_of : value -> nat.
Variable concat_or_stack : bool -> Z -> list value -> value + E.
Variables (stack : bool) (ndim : Z).
Variable initial : value.
Notation due := (due rank_of concat_or_stack stack ndim initial).
Notation run := (StackModel.run rank_of concat_or_stack stack ndim initial).
Notation step := (step rank_of concat_or_stack stack ndim initial).

Lemma run_is ops s : run ops = Some s -> s = StackProofs.run value E rank_of concat_or_stack stack ndim initial ops.
Proof. unfold StackModel.run. destruct (accepted _ _ _ _); [|discriminate]. intros H. now injection H as <-. Qed.
Lemma run_is' ops s more : run ops = Some s -> run (ops ++ more) = Some (StackProofs.run value E rank_of concat_or_stack stack ndim initial (ops ++ more)).
Proof. unfold StackModel.run. destruct (accepted _ _ _ _); [reflexivity|discriminate]. Qed.

(** It starts if and only if the number of dimensions fits the rank of the initial slice: from 0 for
    stacking, from 1 for concatenating *)
Theorem C62_starts : forall ops, run ops <> None <->
  ((if stack then 0 else 1) <= ndim /\ ndim <= Z.of_nat (rank_of initial))%Z.
Proof.
  intros ops. unfold StackModel.run, accepted. rewrite Z.gtb_ltb.
  destruct stack.
  - destruct (Z.ltb_spec ndim 0); [split; [congruence|lia]|]. destruct (Z.ltb_spec (Z.of_nat (rank_of initial)) ndim); cbn; (split; [|congruence || lia]); [congruence|lia].
  - destruct (Z.ltb_spec ndim 1); [split; [congruence|lia]|]. destruct (Z.ltb_spec (Z.of_nat (rank_of initial)) ndim); cbn; (split; [|congruence || lia]); [congruence|lia].
Qed.

(** At any time, and whoever cancels, nothing is written, or the result for all slices of an input that
    is closed: never one for only some of the slices *)
Theorem C62_value : forall ops s, run ops = Some s -> written s = [] \/
  exists v, written s = [v] /\ due (fst (input ops)) (snd (input ops)) = Some (inl v).
Proof. intros ops s R. rewrite (run_is ops s R). exact (top_value value E rank_of concat_or_stack stack ndim initial ops). Qed.

(** If the output succeeds, it holds this value *)
Theorem C62_success : forall ops s, run ops = Some s -> out_status s = Some OK ->
  exists v, due (fst (input ops)) (snd (input ops)) = Some (inl v) /\ written s = [v].
Proof. intros ops s R. rewrite (run_is ops s R). exact (top_success value E rank_of concat_or_stack stack ndim initial ops). Qed.

(** If it fails, then a slice has another rank, or stacking fails, or the input, with this error, unless
    the computation was cancelled or the executor has shut down *)
Theorem C62_error : forall ops s e, run ops = Some s -> out_status s = Some (Err e) ->
  (due (fst (input ops)) (snd (input ops)) = Some (inr e) /\ written s = []) \/
  (exists c, In (Cancel c) ops /\ (e = Cancelled c \/ e = Orphaned)) \/ (In Shutdown ops /\ e = Orphaned).
Proof. intros ops s e R. rewrite (run_is ops s R). exact (top_error value E rank_of concat_or_stack stack ndim initial ops e). Qed.

(** When the routine is done, or waits for what has not come, the output is what it has to be *)
Theorem C62_complete : forall ops s, run ops = Some s ->
  ~ In Expire ops -> (forall e, ~ In (Cancel e) ops) -> ~ In Shutdown ops ->
  at_ s = Gone \/ (at_ s = Waiting /\ ready s = false) ->
  match due (fst (input ops)) (snd (input ops)) with
  | None => written s = [] /\ out_status s = None
  | Some (inl v) => written s = [v] /\ out_status s = Some OK
  | Some (inr e) => written s = [] /\ out_status s = Some (Err e)
  end.
Proof. intros ops s R. rewrite (run_is ops s R). exact (top_complete value E rank_of concat_or_stack stack ndim initial ops). Qed.

(** It gets there: a routine that is neither done nor waiting makes a step, one whose input is there is
    notified, and there are only so many steps until something comes from outside *)
Theorem C62_goes_on : exists work : state value E -> nat, forall s,
  (at_ s <> Gone -> at_ s <> Waiting -> work (step s Step) < work s) /\
  (at_ s = Waiting -> ready s = true -> work (step s Notify) < work s).
Proof.
  exists (work value E). intros s. split.
  - exact (routine_works value E rank_of concat_or_stack stack ndim initial s).
  - exact (notify_works value E rank_of concat_or_stack stack ndim initial s).
Qed.

(** So, after anything that happened but these, it can go on to the right output by itself *)
Theorem C62_ends : forall ops s, run ops = Some s -> ~ In Expire ops -> (forall e, ~ In (Cancel e) ops) -> ~ In Shutdown ops ->
  exists more s', Forall (fun o => o = Step \/ o = Notify) more /\ run (ops ++ more) = Some s' /\
  match due (fst (input ops)) (snd (input ops)) with
  | None => written s' = [] /\ out_status s' = None
  | Some (inl v) => written s' = [v] /\ out_status s' = Some OK
  | Some (inr e) => written s' = [] /\ out_status s' = Some (Err e)
  end.
Proof.
  intros ops s R X C S. destruct (top_ends value E rank_of concat_or_stack stack ndim initial ops X C S) as (more & F & H).
  exists more, (StackProofs.run value E rank_of concat_or_stack stack ndim initial (ops ++ more)).
  split; [exact F|]. split; [exact (run_is' ops s more R)|exact H].
Qed.
End Properties.
Print Assumptions C62_starts.
Print Assumptions C62_value.
Print Assumptions C62_success.
Print Assumptions C62_error.
Print Assumptions C62_complete.
Print Assumptions C62_goes_on.
Print Assumptions C62_ends.

(** * Examples: slices of rank 1 or 2 as lists of numbers with their rank; joining fails at 9 *)
Definition ex_slice : Type := nat * list nat.
Definition ex_join (stack : bool) (ndim : Z) (l : list ex_slice) : ex_slice + nat :=
  let items := concat (map snd l) in
  if existsb (Nat.eqb 9) items then inr 99 else inl ((if stack then 2 else 1), items).
Definition ex_run (stack : bool) (ndim : Z) (ops : list (op ex_slice nat)) :=
  match StackModel.run fst ex_join stack ndim (1, [5]) ops with
  | Some s => Some (written s, out_status s, at_ s)
  | None => None
  end.
Definition steps (n : nat) : list (op ex_slice nat) := repeat Step n.
Definition ex_ops : list (op ex_slice nat) :=
  Write_input (1, [4; 3]) :: steps 9 ++ [Notify; Write_input (1, []); Notify] ++ steps 9 ++ [Write_input (1, [6]); Close_input None; Notify] ++ steps 9.
Example C62_hypotheses_met :
  ex_run true 0 ex_ops = Some ([(2, [5; 4; 3; 6])], Some OK, Gone) /\
  due fst ex_join true 0 (1, [5]) (fst (input ex_ops)) (snd (input ex_ops)) = Some (inl (2, [5; 4; 3; 6])) /\
  ex_run false 1 ex_ops = Some ([(1, [5; 4; 3; 6])], Some OK, Gone) /\
  ex_run false 0 ex_ops = None /\ ex_run false 2 ex_ops = None /\ ex_run true (-1) ex_ops = None /\ ex_run true 2 ex_ops = None /\
  ex_run true 1 (Write_input (1, [4]) :: steps 9) = Some ([], None, Waiting) /\
  ex_run true 1 ([Write_input (1, [4]); Write_input (2, [7]); Write_input (1, [3])] ++ steps 9) = Some ([], Some (Err WrongRank), Gone) /\
  ex_run true 1 ([Write_input (1, [9]); Close_input None] ++ steps 9) = Some ([], Some (Err (Given 99)), Gone) /\
  ex_run true 1 ([Write_input (1, [4]); Close_input (Some 8)] ++ steps 9) = Some ([], Some (Err (Given 8)), Gone) /\
  ex_run true 1 (Close_input None :: steps 9) = Some ([(2, [5])], Some OK, Gone) /\
  (* a cancelled computation *)
  ex_run true 1 ([Write_input (1, [4]); Write_input (1, [2]); Close_input None] ++ steps 4 ++ [Cancel 1; Call_on_cancel; Close_cancelled] ++ steps 5)
    = Some ([], Some (Err (Cancelled 1)), Gone) /\
  ex_run true 1 [Write_input (1, [4]); Step; Shutdown; Step] = Some ([], Some (Err Orphaned), Gone).
Proof. vm_compute. repeat split; reflexivity. Qed.
Print Assumptions C62_hypotheses_met.
