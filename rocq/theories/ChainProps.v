(** C32: chained and interleaved streams deliver everything, in order. *)
From Coq Require Import List Bool PeanoNat Lia.
From Verif Require Import ChainModel ChainSpec ChainProofs.
From Verif Require Import InterleaveModel InterleaveSpec InterleaveProofs.
Import ListNotations.
Local Open Scope nat_scope.

(** * Chains *)

(** Whatever the threads do, no CHECK fails and nothing is written to, or closed
    after, a closed output. *)
Theorem C32_chain_never_crashes : forall (value error : Type) (ops : list (op value error)) o,
  In o (snd (run make_chain ops)) -> o <> Fatal /\ o <> CheckFailed.
Proof.
  intros value error ops o H.
  exact (proj1 (Forall_forall _ _)
           (proj2 (ChainProofs.run_inv value error ops make_chain (ChainProofs.inv_make value error)))
           o H).
Qed.

(** The output holds one stream after the other, in the order of adding.  It
    fails with e exactly after everything in front of an input that failed with
    e, and it succeeds only when the chain was given up and all inputs succeeded
    and were delivered. *)
Theorem C32_chain_order : forall (value error : Type) (ops : list (op value error)),
  let c := fst (run make_chain ops) in
  (exists rest, fst (chained (streams ops)) = written c ++ rest) /\
  (forall e, out_status c = Some (Err e) -> chained (streams ops) = (written c, Some e)) /\
  (out_status c = Some OK ->
     given_up ops /\ all_succeeded (streams ops) /\ chained (streams ops) = (written c, None)).
Proof.
  intros value error ops. cbv zeta. unfold given_up.
  rewrite (the_streams value error ops), (the_owner value error ops).
  pose proof (inv_delivers value error _ (ChainProofs.reachable value error ops)) as (A & B & C).
  split; [exact A|]. split; [exact B|]. intros H. destruct (C H) as (C1 & C2 & C3). auto.
Qed.

(** What is in the output stays, and a closed output never changes. *)
Theorem C32_chain_output_is_final : forall (value error : Type) (ops more : list (op value error)),
  let c := fst (run make_chain ops) in
  let c' := fst (run make_chain (ops ++ more)) in
  (exists rest, written c' = written c ++ rest) /\
  (forall st, out_status c = Some st -> out_status c' = Some st /\ written c' = written c).
Proof.
  intros value error ops more. cbv zeta. rewrite ChainProofs.run_app.
  apply ChainProofs.run_keeps, ChainProofs.reachable.
Qed.

(** When no thread is left, everything that can be delivered is delivered, an
    error is reported, and if all inputs succeeded and the chain is given up, its
    destruction closes the output with success. *)
Theorem C32_chain_delivers_everything : forall (value error : Type) (ops : list (op value error)),
  let c := fst (run make_chain ops) in
  threads c = [] ->
  written c = fst (chained (streams ops)) /\
  match snd (chained (streams ops)) with
  | Some e => out_status c = Some (Err e)
  | None => destroyed c = false -> out_status c = None
  end /\
  (given_up ops -> all_succeeded (streams ops) -> destroyed c = false ->
     snd (step c Destroy) = Done /\ out_status (fst (step c Destroy)) = Some OK /\
     written (fst (step c Destroy)) = written c).
Proof.
  intros value error ops. cbv zeta. intros T. unfold given_up.
  rewrite (the_streams value error ops), (the_owner value error ops).
  destruct (inv_settled value error _ (ChainProofs.reachable value error ops) T) as (A & B & C).
  auto.
Qed.

(** A thread can always go on, and unless something happens outside, all threads
    end: there are only so many steps. *)
Theorem C32_chain_threads_end : forall (value error : Type) (ops : list (op value error)),
  let c := fst (run make_chain ops) in
  (forall k, k < length (threads c) -> snd (step c (Step k)) = Done) /\
  exists bound, forall ks,
    Forall (fun o => o = Done) (snd (run c (map (@Step _ _) ks))) -> length ks <= bound.
Proof.
  intros value error ops. cbv zeta. pose proof (ChainProofs.reachable value error ops) as V. split.
  - intros k. now apply step_possible.
  - exists (work value error (fst (run make_chain ops))). intros ks. now apply schedule_bounded.
Qed.

(** * Interleaving *)

(** The items of every input, and those added directly, come in their order, and
    nothing else does. *)
Theorem C32_interleave_order : forall (value error : Type) (ops : list (iop value error)),
  let s := irun make_inter ops in
  let w := ihappened ops in
  (forall i vs st, nth_error (w_streams w) i = Some (vs, st) ->
     prefix (taken_from (Some i) (out s)) vs) /\
  prefix (taken_from None (out s)) (w_items w) /\
  (forall i v, In (Some i, v) (out s) -> i < length (w_streams w)).
Proof. intros value error ops. exact (items_from_sources _ _ _ _ (InterleaveProofs.reachable _ _ ops)). Qed.

(** The output succeeds only after all inputs have succeeded and all their items
    were written. *)
Theorem C32_interleave_success : forall (value error : Type) (ops : list (iop value error)),
  let s := irun make_inter ops in
  let w := ihappened ops in
  out_closed s = Some OK ->
  w_in_use w = false /\ w_errors w = [] /\ taken_from None (out s) = w_items w /\
  forall i vs st, nth_error (w_streams w) i = Some (vs, st) ->
    st = Some OK /\ taken_from (Some i) (out s) = vs.
Proof. intros value error ops. exact (success_is_complete _ _ _ _ (InterleaveProofs.reachable _ _ ops)). Qed.

(** It fails only with an error that was added, or with the error of an input all
    of whose items were written. *)
Theorem C32_interleave_error : forall (value error : Type) (ops : list (iop value error)) e,
  let s := irun make_inter ops in
  let w := ihappened ops in
  out_closed s = Some (Err e) ->
  In e (w_errors w) \/
  exists i vs, nth_error (w_streams w) i = Some (vs, Some (Err e)) /\
               taken_from (Some i) (out s) = vs.
Proof. intros value error ops e. exact (error_is_real _ _ _ _ e (InterleaveProofs.reachable _ _ ops)). Qed.

Theorem C32_interleave_output_is_final : forall (value error : Type) (ops more : list (iop value error)),
  let s := irun make_inter ops in
  let s' := irun make_inter (ops ++ more) in
  (exists rest, out s' = out s ++ rest) /\
  (forall st, out_closed s = Some st -> out_closed s' = Some st /\ out s' = out s).
Proof.
  intros value error ops more. cbv zeta. rewrite irun_app.
  exact (InterleaveProofs.run_keeps _ _ more _ _ (InterleaveProofs.reachable _ _ ops)).
Qed.

(** When nothing can go on and the output is still open, nothing has failed and
    everything is written; and if all inputs have succeeded and the interleave is
    given up, its destruction closes the output with success.  So a failure
    closes the output. *)
Theorem C32_interleave_delivers_everything : forall (value error : Type) (ops : list (iop value error)),
  let s := irun make_inter ops in
  let w := ihappened ops in
  quiet s -> expired s = false -> out_closed s = None ->
  w_errors w = [] /\ taken_from None (out s) = w_items w /\
  (forall i vs st, nth_error (w_streams w) i = Some (vs, st) ->
     taken_from (Some i) (out s) = vs /\ (st = None \/ st = Some OK)) /\
  (w_in_use w = false -> all_succeeded (w_streams w) ->
     snd (istep s IEnd) = Done /\ out_closed (fst (istep s IEnd)) = Some OK /\
     out (fst (istep s IEnd)) = out s).
Proof. intros value error ops. exact (settled _ _ _ _ (InterleaveProofs.reachable _ _ ops)). Qed.

(** Unless something happens outside, all threads end. *)
Theorem C32_interleave_threads_end : forall (value error : Type),
  exists work : inter value error -> nat,
    forall s o, internal value error o -> snd (istep s o) = Done ->
      work (fst (istep s o)) < work s.
Proof. intros value error. exists (iwork value error). exact (internal_work value error). Qed.

(** * Non-vacuity *)

(** Three streams: the second is added while the first is open, an item arrives
    while the thread is about to subscribe, and the third fails. *)
Definition chain_example : list (op nat nat) :=
  [Add [1; 2] None; Step 0; Step 0; Step 0; Step 0; Step 0; Step 0;
   EnvWrite 0 3; Step 0; Step 0; Add [4] (Some OK); Step 0; Step 0; Step 0; Step 0;
   EnvClose 0 OK; Step 0; Step 0; Step 0; Step 0; Step 0; Step 0; Step 0;
   Add [5] (Some (Err 9)); Add [6] (Some OK)].
Definition chain_error : list (op nat nat) :=
  chain_example ++ [Step 0; Step 0; Step 0; Step 0; Step 0; Step 0; Add [7] None].
Definition chain_success : list (op nat nat) :=
  [Add [1] (Some OK); Add [2] (Some OK); Drop; Step 0; Step 0; Step 0; Step 0; Step 0;
   Step 0; Step 0; Step 0; Step 0; Destroy].

Example C32_chain_hypotheses_met :
  written (fst (run make_chain chain_example)) = [1; 2; 3; 4] /\
  length (threads (fst (run make_chain chain_example))) = 1 /\
  written (fst (run make_chain chain_error)) = [1; 2; 3; 4; 5] /\
  out_status (fst (run make_chain chain_error)) = Some (Err 9) /\
  threads (fst (run make_chain chain_error)) = [] /\
  written (fst (run make_chain chain_success)) = [1; 2] /\
  out_status (fst (run make_chain chain_success)) = Some OK.
Proof. vm_compute. auto 10. Qed.

(** Two streams and an item; a run that succeeds, and one in which an error
    arrives while an item is being written. *)
Definition interleave_success : list (iop nat nat) :=
  [IAdd [1; 2] None; IAdd [10; 20] (Some OK); IStep 0; IStep 1; IAddItem 7; IStep 1; IStep 0;
   IStep 0; IStep 0; IStep 0; IEnvWrite 0 3; IStep 0; IEnvClose 0 OK; IStep 0; IStep 0; IStep 0;
   IStep 1; IStep 1; IStep 1; IDrop].
Definition interleave_error : list (iop nat nat) :=
  [IAdd [1; 2] None; IAdd [10] (Some (Err 9)); IStep 0; IStep 1; IStep 1; IStep 1; IStep 1;
   IStep 0; IStep 0; IClose; IStep 0; IAddError 4].
Example C32_interleave_hypotheses_met :
  map snd (out (irun make_inter interleave_success)) = [7; 10; 1; 2; 3; 20] /\
  quiet (irun make_inter interleave_success) /\
  out_closed (irun make_inter interleave_success) = None /\
  w_in_use (ihappened interleave_success) = false /\
  all_succeeded (w_streams (ihappened interleave_success)) /\
  out_closed (irun make_inter (interleave_success ++ [IEnd])) = Some OK /\
  map snd (out (irun make_inter interleave_error)) = [10; 1] /\
  out_closed (irun make_inter interleave_error) = Some (Err 9).
Proof.
  repeat match goal with |- _ /\ _ => split end; try (vm_compute; reflexivity).
  - split; [vm_compute; reflexivity|]. intros [|[|[|i]]]; vm_compute; reflexivity.
  - unfold all_succeeded. vm_compute. repeat constructor.
Qed.

Print Assumptions C32_chain_never_crashes.
Print Assumptions C32_chain_order.
Print Assumptions C32_chain_output_is_final.
Print Assumptions C32_chain_delivers_everything.
Print Assumptions C32_chain_threads_end.
Print Assumptions C32_interleave_order.
Print Assumptions C32_interleave_success.
Print Assumptions C32_interleave_error.
Print Assumptions C32_interleave_output_is_final.
Print Assumptions C32_interleave_delivers_everything.
Print Assumptions C32_interleave_threads_end.
