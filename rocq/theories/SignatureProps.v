(** C50: a functor is called like a Python function with the same signature. *)
From Coq Require Import String List Bool Arith Permutation Lia.
From Verif Require Import SignatureModel SignatureSpec SignatureProofs.
Import ListNotations.
Local Open Scope nat_scope.
Local Open Scope list_scope.
Local Open Scope string_scope.

(** A parameter list is accepted exactly if Python accepts it and its defaults are items *)
Theorem C50_signature {V} (ps : list (param V)) :
  (exists s, create_signature ps = Good s) <-> valid_parameters ps.
Proof.
  split.
  - intros [s H]. apply create_signature_iff in H. apply H.
  - intros H. exists (mkSig ps (keyword_index 0 ps)). apply create_signature_iff. auto.
Qed.

(** A call binds the parameters exactly as Python does; defaults are taken with the bag of
    the functor *)
Theorem C50_bind {V bag} (with_bag : bag -> V -> V) ps s pos kw db r :
  create_signature ps = Good s ->
  bind_arguments with_bag s (pos ++ map snd kw)%list (map fst kw) db = Good r <->
  binds (fun d => match db with Some b => with_bag b d | None => d end) ps pos kw r.
Proof.
  intros H. apply create_signature_iff in H. destruct H as [H ->]. exact (bind_iff V bag with_bag ps pos kw db H r).
Qed.

(** A refused call is one that Python refuses, and the error names a reason that holds *)
Theorem C50_refused {V bag} (with_bag : bag -> V -> V) ps s pos kw db e :
  create_signature ps = Good s ->
  bind_arguments with_bag s (pos ++ map snd kw)%list (map fst kw) db = Bad e ->
  complaint_holds ps pos kw e
  /\ forall r, ~ binds (fun d => match db with Some b => with_bag b d | None => d end) ps pos kw r.
Proof.
  intros H B. split.
  - apply create_signature_iff in H. destruct H as [H ->]. exact (bind_complaint V bag with_bag ps pos kw db H e B).
  - intros r R. apply (C50_bind with_bag ps s pos kw db r H) in R. congruence.
Qed.

(** More names than arguments are refused; with fewer the call is one of the above *)
Theorem C50_arguments {V bag} (with_bag : bag -> V -> V) s (args : list V) names (db : option bag) :
  (length args < length names -> bind_arguments with_bag s args names db = Bad ESizes)
  /\ (length names <= length args -> exists pos kw, args = (pos ++ map snd kw)%list /\ names = map fst kw).
Proof.
  split.
  - intros L. unfold bind_arguments. destruct (Nat.ltb_spec (length args) (length names)); [reflexivity|lia].
  - intros L. exists (firstn (length args - length names) args),
      (combine names (skipn (length args - length names) args)).
    assert (E : length names = length (skipn (length args - length names) args)) by (rewrite skipn_length; lia).
    revert E. generalize (firstn_skipn (length args - length names) args).
    generalize (firstn (length args - length names) args) as a.
    generalize (skipn (length args - length names) args) as b. intros b a EQ E. clear L. subst args.
    revert b E. induction names as [|n names IH]; intros [|x b] E; try discriminate; [split; reflexivity|].
    cbn in E. injection E as E. destruct (IH b E) as [A B]. cbn [combine map fst snd].
    apply app_inv_head in A. split; [rewrite A at 1; reflexivity|rewrite B at 1; reflexivity].
Qed.

(** The order in which keyword arguments are passed does not matter *)
Theorem C50_keyword_order {V bag} (with_bag : bag -> V -> V) ps s pos kw kw' db r :
  create_signature ps = Good s -> Permutation kw kw' ->
  bind_arguments with_bag s (pos ++ map snd kw)%list (map fst kw) db = Good r ->
  exists r', bind_arguments with_bag s (pos ++ map snd kw')%list (map fst kw') db = Good r' /\ Forall2 same_bound r r'.
Proof.
  intros H P B. apply (C50_bind with_bag ps s pos kw db r H) in B.
  assert (VP : valid_parameters ps) by (apply create_signature_iff in H; apply H).
  destruct (binds_permuted V _ ps pos kw kw' r VP P B) as (r' & B' & F). exists r'. split; [|exact F].
  apply (C50_bind with_bag ps s pos kw' db r' H). exact B'.
Qed.

(** A signature with all kinds: a positional only, b and c=7, rest variadic, d and e=9
    keyword only, more variadic *)
Definition ex_params : list (param nat) :=
  [mkParam "a" PositionalOnly None; mkParam "b" PositionalOrKeyword None; mkParam "c" PositionalOrKeyword (Some (0, 7));
   mkParam "rest" VarPositional None; mkParam "d" KeywordOnly None; mkParam "e" KeywordOnly (Some (0, 9));
   mkParam "more" VarKeyword None].
Definition ex_bind (ps : list (param nat)) (args : list nat) (names : list string) : option (sig_result (list (bound nat))) :=
  match create_signature ps with
  | Good s => Some (bind_arguments Nat.add s args names (Some 100))
  | Bad _ => None
  end.

Example C50_hypotheses_met :
  (exists s, create_signature ex_params = Good s)
  (* f(1, 2, d=3) *)
  /\ ex_bind ex_params [1; 2; 3] ["d"] =
     Some (Good [Plain 1; Plain 2; Plain 107; Tuple []; Plain 3; Plain 109; NamedTuple []])
  (* f(1, 2, 3, 4, 5, z=8, d=6, a=7): the keyword a does not name the positional parameter *)
  /\ ex_bind ex_params [1; 2; 3; 4; 5; 8; 6; 7] ["z"; "d"; "a"] =
     Some (Good [Plain 1; Plain 2; Plain 3; Tuple [4; 5]; Plain 6; Plain 109; NamedTuple [("z", 8); ("a", 7)]])
  (* f(1, d=3): b is missing; f(1, 2, b=4, d=3): b is given twice *)
  /\ ex_bind ex_params [1; 3] ["d"] = Some (Bad (ENoValue "b"))
  /\ ex_bind ex_params [1; 2; 4; 3] ["b"; "d"] = Some (Bad (ETwice "b"))
  /\ ex_bind ex_params [1; 2; 4; 5; 6] ["z"; "d"; "z"] = Some (Bad (EField "z"))
  /\ ex_bind (firstn 3 ex_params) [1; 2; 3; 4] [] = Some (Bad (ETooMany 1))
  /\ ex_bind (firstn 3 ex_params) [1; 2; 3] ["z"] = Some (Bad (EUnknown ["z"]))
  (* rejected parameter lists *)
  /\ create_signature [mkParam "a" KeywordOnly (Some (0, 1)); mkParam "b" PositionalOnly None] = Bad (EOrder "b" "a")
  /\ create_signature [mkParam "a" PositionalOnly (Some (0, 1)); mkParam "b" PositionalOrKeyword None] = Bad (ENoDefaultAfter "b" "a")
  /\ create_signature [mkParam "a" VarPositional (@None (nat * nat)); mkParam "b" VarPositional None] = Bad (EAtMostOne VarPositional)
  /\ create_signature [mkParam "a" VarKeyword (Some (0, 1))] = Bad (EVariadicDefault "a")
  /\ create_signature [mkParam "a" KeywordOnly (Some (1, 1))] = Bad (EDefaultRank "a")
  /\ create_signature [mkParam "a" KeywordOnly (Some (0, 1)); mkParam "a" VarKeyword None] = Bad (EDuplicate "a").
Proof. split; [eexists; vm_compute; reflexivity|]. vm_compute. repeat split; reflexivity. Qed.

Print Assumptions C50_signature.
Print Assumptions C50_bind.
Print Assumptions C50_refused.
Print Assumptions C50_arguments.
Print Assumptions C50_keyword_order.
