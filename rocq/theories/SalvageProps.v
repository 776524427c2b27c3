(** Property C36 (and C35 for the salvage operator): json_stream_salvage. *)
From Coq Require Import String NArith ZArith List Bool Lia.
From Verif Require Import JsonModel JsonSpec SalvageModel SalvageSpec SalvageProofs SalvageValidProofs
  SalvageRefutedProofs.
Import ListNotations.
Open Scope N_scope.

Theorem C35_salvage_chunking_does_not_matter : forall opts items1 items2,
  given items1 = given items2 ->
  List.concat (run (salvage_proc opts) items1) = List.concat (run (salvage_proc opts) items2).
Proof. exact salvage_chunks. Qed.
Print Assumptions C35_salvage_chunking_does_not_matter.

(** C36, full statement: for all options and items,
      valid_stream (o_nan opts) (List.concat (run (salvage_proc opts) items)).
    It is false of the code; the theorems named refuted below show where. What
    holds: apart from inputs with a backslash before a control character, with
    two backticks at the very end, or with both a brace and a sign before a digit
    or a point, the output is a stream of valid JSON values, except that the
    first one may be preceded by an empty line. *)
Theorem C36_output_is_valid_json_partial : forall opts items,
  ~ escaped_control (given items) -> ~ final_backticks (given items) ->
  ~ In 123 (given items) \/ ~ signed_number (given items) ->
  let out := List.concat (run (salvage_proc opts) items) in
  valid_stream (o_nan opts) out \/ exists o, out = cNewline :: o /\ valid_stream (o_nan opts) o.
Proof. intros opts items H1 H2 H3. rewrite run_salvage. exact (salvage_valid opts _ H1 H2 H3). Qed.
Print Assumptions C36_output_is_valid_json_partial.

(** with ensure_ascii only an escaped non-ASCII character gets through *)
Theorem C36_ensure_ascii_partial : forall opts items, o_ascii opts = true ->
  ~ escaped_non_ascii (given items) ->
  Forall (fun c => c < 128) (List.concat (run (salvage_proc opts) items)).
Proof. intros opts items H1 H2. rewrite run_salvage. exact (salvage_ascii opts H1 _ H2). Qed.
Print Assumptions C36_ensure_ascii_partial.

Example C36_hypotheses_met :
  let t := lit "{'a': [1, .5, 0x1F, `q`], b: nUll, 'c' 7 } trailing ""x" in
  ~ escaped_control t /\ ~ final_backticks t /\ ~ signed_number t /\ ~ escaped_non_ascii t /\
  List.concat (run (salvage_proc (mkSalvage false true 100)) [Some t]) =
    lit "{""a"":[1,0.5,31,""q""],""b"":null,""c"":7}" ++ [10] ++ lit """trailing""" ++ [10] ++ lit """x""".
Proof.
  cbv zeta. set (t := lit _).
  assert (B : ~ In 92 t) by (vm_compute; intuition congruence).
  assert (S : ~ In 43 t /\ ~ In 45 t) by (vm_compute; intuition congruence).
  split; [|split; [|split; [|split]]].
  - intros (p & c & q & E & _). apply B. rewrite E. apply in_or_app. right. left. reflexivity.
  - intros (p & q & E & H). apply (f_equal (@rev N)) in E. rewrite !rev_app_distr in E.
    apply Forall_rev in H. destruct (rev q) as [|x l]; [vm_compute in E; congruence|].
    apply Forall_cons_iff in H. destruct H as [H _]. apply (f_equal (@hd N 0)) in E. vm_compute in E. lia.
  - intros (p & s & c & q & E & [-> | ->] & _); [apply (proj1 S)|apply (proj2 S)]; rewrite E; apply in_or_app; right; left; reflexivity.
  - intros (p & c & q & E & _). apply B. rewrite E. apply in_or_app. right. left. reflexivity.
  - reflexivity.
Qed.

(** A backslash before a control character: it is passed on. *)
Theorem C36_escaped_control_refuted : exists opts t,
  ~ valid_stream (o_nan opts) (List.concat (run (salvage_proc opts) [Some t])).
Proof.
  exists (mkSalvage false true 100), (lit """\" ++ [1] ++ lit """").
  apply (not_valid_control false (lit """\\") 1 (lit """")); [reflexivity|discriminate].
Qed.
(** Two backticks at the end: {``  gives  {""}. *)
Theorem C36_final_backticks_refuted : exists opts t,
  ~ escaped_control t /\ ~ signed_number t /\
  ~ valid_stream (o_nan opts) (List.concat (run (salvage_proc opts) [Some t])).
Proof.
  exists (mkSalvage false true 100), (lit "{``"). split; [|split].
  - intros (p & c & q & E & _). assert (H : In 92 (lit "{``")) by (rewrite E; apply in_or_app; right; left; reflexivity).
    vm_compute in H. intuition congruence.
  - intros (p & s & c & q & E & H & _). assert (X : In s (lit "{``")) by (rewrite E; apply in_or_app; right; left; reflexivity).
    vm_compute in X. destruct H as [-> | ->]; intuition congruence.
  - apply (not_valid_brace false 34 [34; 125]); [discriminate|]. right. cbn. lia.
Qed.
(** A signed number where a key is expected: {-5:1}  is passed on. *)
Theorem C36_signed_key_refuted : exists opts t,
  ~ In cBackslash t /\ ~ In 96 t /\
  ~ valid_stream (o_nan opts) (List.concat (run (salvage_proc opts) [Some t])).
Proof.
  exists (mkSalvage false true 100), (lit "{-5:1}"). split; [|split].
  - vm_compute. intuition congruence.
  - vm_compute. intuition congruence.
  - apply (not_valid_brace false 45 (lit "5:1}")); [discriminate|]. left. discriminate.
Qed.
(** A closing bracket with nothing open: ]1  gives an empty line and 1. *)
Theorem C36_leading_newline_refuted : exists opts t,
  ~ In cBackslash t /\ ~ In 96 t /\ ~ In 123 t /\
  ~ valid_stream (o_nan opts) (List.concat (run (salvage_proc opts) [Some t])).
Proof.
  exists (mkSalvage false true 100), (lit "]1").
  split; [|split; [|split]]; try (vm_compute; intuition congruence).
  apply (not_valid_newline false [49]).
Qed.
(** With ensure_ascii, an escaped non-ASCII character is passed on. *)
Theorem C36_ensure_ascii_refuted : exists opts t, o_ascii opts = true /\
  ~ Forall (fun c => c < 128) (List.concat (run (salvage_proc opts) [Some t])).
Proof.
  exists (mkSalvage false true 100), (lit """\" ++ [0xC3; 0xA9] ++ lit """"). split; [reflexivity|].
  vm_compute. intros H. do 3 (apply Forall_cons_iff in H; destruct H as [_ H]).
  apply Forall_cons_iff in H. destruct H as [H _]. discriminate.
Qed.
Print Assumptions C36_escaped_control_refuted.
Print Assumptions C36_final_backticks_refuted.
Print Assumptions C36_signed_key_refuted.
Print Assumptions C36_leading_newline_refuted.
Print Assumptions C36_ensure_ascii_refuted.
