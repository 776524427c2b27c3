(** Inputs for which salvage does not emit valid JSON (lemmas for C36), and
    independence of the chunks (C35). *)
From Coq Require Import String Ascii NArith ZArith List Bool Lia ZifyBool ZifyN.
From Verif Require Import JsonModel JsonSpec JsonChunkProofs SalvageModel SalvageSpec SalvageProofs SalvageValidProofs.
Import ListNotations.
Open Scope N_scope.

(** ** Chunks *)
Lemma salvage_splits opts : splits (salvage_proc opts).
Proof.
  intros st a b e. cbn [process salvage_proc]. unfold salvage_process.
  rewrite loop_app. destruct (loop (input_byte opts) st a) as [s1 o1] eqn:E1. cbn [fst snd].
  rewrite single_end, single_state.
  destruct (loop (input_byte opts) s1 b) as [s2 o2]. cbn [fst snd].
  destruct e.
  - destruct (input_end opts (snd s2)) as [s3 o3].
    rewrite !single_text, !single_end, !single_state. split; [rewrite app_assoc; reflexivity|auto].
  - rewrite !single_text, !single_end, !single_state. auto.
Qed.
Lemma salvage_ends opts : ends (salvage_proc opts).
Proof.
  intros st a. cbn [process salvage_proc]. unfold salvage_process. destruct (loop (input_byte opts) st a).
  destruct (input_end opts _). reflexivity.
Qed.
Lemma run_salvage opts items : List.concat (run (salvage_proc opts) items) = salvage opts (given items).
Proof.
  unfold run. rewrite (run_from_one _ (salvage_splits opts) (salvage_ends opts)).
  cbn [process salvage_proc init]. unfold salvage_process, salvage.
  destruct (loop (input_byte opts) _ (given items)) as [s o]. destruct (input_end opts (snd s)) as [s2 o2].
  apply single_text.
Qed.
Lemma salvage_chunks opts items1 items2 : given items1 = given items2 ->
  List.concat (run (salvage_proc opts) items1) = List.concat (run (salvage_proc opts) items2).
Proof. intros H. rewrite !run_salvage, H. reflexivity. Qed.

(** ** What valid JSON looks like *)
Lemma number_nonempty l : number_ok l -> exists c r, l = c :: r /\ (c = 45 \/ digit c).
Proof.
  intros (sg & i & f & e & -> & Hs & Hi & _).
  assert (HI : exists d r, i = d :: r /\ digit d).
  { destruct Hi as [->|(d & r & -> & Hd & _)]; [exists 48, []|exists d, r]; split; auto; unfold digit; lia. }
  destruct HI as (d & r & -> & Hd). destruct Hs as [->| ->]; cbn; eauto.
Qed.
(** the first character *)
Lemma valid_head nan j : valid nan j ->
  exists c r, compact j = c :: r /\
    (c = 110 \/ c = 116 \/ c = 102 \/ c = 45 \/ digit c \/ c = 78 \/ c = 73 \/ c = 34 \/ c = 91 \/
     c = 123 /\ (r = [125] \/ exists r', r = 34 :: r' /\ (4 <= List.length r')%nat)).
Proof.
  assert (H0 : forall j, valid nan j -> exists c r, compact j = c :: r).
  { intros j0 [| | |l [H|[_ [->|[->| ->]]]]|b H|l H|l H1 H2]; try (do 2 eexists; reflexivity).
    destruct (number_nonempty l H) as (c & r & -> & _). do 2 eexists. reflexivity. }
  intros [| | |l [H|[_ [->|[->| ->]]]]|b H|l H|l H1 H2];
    try (do 2 eexists; split; [reflexivity|]; tauto).
  - destruct (number_nonempty l H) as (c & r & -> & Hc). exists c, r. unfold compact. cbn.
    rewrite app_nil_r. split; [reflexivity|]. destruct Hc; tauto.
  - rewrite compact_obj. do 2 eexists. split; [reflexivity|]. do 9 right. split; [reflexivity|].
    destruct l as [|[k v] l]; [left; reflexivity|right]. cbn [map fst snd].
    apply Forall_cons_iff in H2. destruct H2 as [Hv _]. destruct (H0 v Hv) as (c & r & E). cbn in E.
    destruct (map _ l) as [|x xs]; cbn [intercalate]; rewrite E; unfold quoted; cbn [app];
      eexists; (split; [reflexivity|]); rewrite !app_length; cbn; rewrite ?app_length; cbn; lia.
Qed.
Lemma stream_head nan t : valid_stream nan t -> t = [] \/ exists c r, t = c :: r /\
    (c = 110 \/ c = 116 \/ c = 102 \/ c = 45 \/ digit c \/ c = 78 \/ c = 73 \/ c = 34 \/ c = 91 \/
     c = 123 /\ ((exists r', r = 125 :: r') \/ exists r', r = 34 :: r' /\ (4 <= List.length r')%nat)).
Proof.
  intros (js & H & ->). destruct H as [|j js Hj H]; [auto|]. right.
  destruct (valid_head nan j Hj) as (c & r & E & Hc). cbn [map].
  assert (Ht : exists q, intercalate [cNewline] (compact j :: map compact js) = (c :: r) ++ q).
  { destruct (map compact js); cbn [intercalate]; rewrite E; [exists []; rewrite app_nil_r; reflexivity|].
    eexists. reflexivity. }
  destruct Ht as (q & ->). exists c, (r ++ q). split; [reflexivity|].
  repeat (destruct Hc as [Hc|Hc]; [tauto|]). do 9 right. destruct Hc as [-> [->|(r' & -> & Hl)]].
  - split; [reflexivity|]. left. eexists. reflexivity.
  - split; [reflexivity|]. right. exists (r' ++ q). split; [reflexivity|]. rewrite app_length. lia.
Qed.

Definition printable (c : byte) : Prop := c = 10 \/ 32 <= c.
Lemma string_printable b : string_ok b -> Forall printable b.
Proof.
  assert (HH : forall c, hex_ok c -> printable c).
  { intros c (v & Hv). unfold hex_digit in Hv. unfold printable. lia. }
  assert (HE : forall c, simple_escape c <> None -> printable c).
  { intros c H. unfold simple_escape in H. right.
    repeat match type of H with context[if ?a =? ?b then _ else _] => destruct (a =? b) eqn:?; [lia|] end. congruence. }
  assert (HR : forall c, 32 <= c -> printable c) by (unfold printable; auto).
  induction 1; [constructor| | |]; repeat (apply Forall_cons); auto; apply HR; unfold cBackslash; lia.
Qed.
Lemma intercalate_forall {A} (P : A -> Prop) sep l : Forall P sep -> Forall (Forall P) l -> Forall P (intercalate sep l).
Proof.
  intros Hs. induction 1 as [|x l Hx Hl IH]; [constructor|]. destruct l; cbn [intercalate]; [exact Hx|].
  apply Forall_app. split; [exact Hx|]. apply Forall_app. split; [exact Hs|exact IH].
Qed.
Ltac fc := repeat (first [apply Forall_nil | apply Forall_cons]).
Lemma digits_printable l : Forall digit l -> Forall printable l.
Proof. apply Forall_impl. unfold digit, printable. intros. lia. Qed.
Lemma number_printable l : number_ok l -> Forall printable l.
Proof.
  intros (sg & i & f & e & -> & Hs & Hi & Hf & He).
  assert (P : forall c, 32 <= c -> printable c) by (unfold printable; auto).
  repeat (apply Forall_app; split).
  - destruct Hs as [->| ->]; fc. apply P. lia.
  - destruct Hi as [->|(d & r & -> & Hd & Hr)]; fc; try (apply P; lia). apply digits_printable, Hr.
  - destruct Hf as [->|(d & -> & _ & Hd)]; constructor; [apply P; lia|apply digits_printable, Hd].
  - destruct He as [->|(m & sg' & d & -> & Hm & Hs' & _ & Hd)]; constructor; [apply P; lia|].
    apply Forall_app. split; [|apply digits_printable, Hd]. destruct Hs' as [->|[->| ->]]; fc; apply P; lia.
Qed.
Fixpoint valid_printable nan j (H : valid nan j) {struct H} : Forall printable (compact j).
Proof.
  assert (P : forall c, 32 <= c -> printable c) by (unfold printable; auto).
  destruct H as [| | |l H|b H|l H|l H1 H2].
  - change (compact JNull) with [110; 117; 108; 108]. fc; apply P; lia.
  - change (compact JTrue) with [116; 114; 117; 101]. fc; apply P; lia.
  - change (compact JFalse) with [102; 97; 108; 115; 101]. fc; apply P; lia.
  - unfold compact. cbn. rewrite app_nil_r. destruct H as [H|[_ [->|[->| ->]]]]; [apply number_printable, H| | |]; cbn;
      fc; apply P; lia.
  - unfold compact. cbn. rewrite app_nil_r. constructor; [apply P; unfold cQuote; lia|].
    apply Forall_app. split; [apply string_printable, H|]. fc. apply P. unfold cQuote. lia.
  - rewrite compact_arr. constructor; [apply P; lia|]. apply Forall_app. split; [|fc; apply P; lia].
    apply intercalate_forall; [fc; apply P; lia|].
    induction H as [|x l Hx Hl IH]; [constructor|]. cbn. constructor; [exact (valid_printable nan x Hx)|exact IH].
  - rewrite compact_obj. constructor; [apply P; lia|]. apply Forall_app. split; [|fc; apply P; lia].
    apply intercalate_forall; [fc; apply P; lia|].
    induction H2 as [|x l Hx Hl IH]; [constructor|]. apply Forall_cons_iff in H1. destruct H1 as [Hk H1]. cbn. constructor.
    + constructor; [apply P; unfold cQuote; lia|]. apply Forall_app. split; [|].
      * apply Forall_app. split; [apply string_printable, Hk|]. fc. apply P. unfold cQuote. lia.
      * constructor; [apply P; unfold cColon; lia|]. exact (valid_printable nan (snd x) Hx).
    + apply IH, H1.
Qed.
Lemma stream_printable nan t : valid_stream nan t -> Forall printable t.
Proof.
  intros (js & H & ->). apply intercalate_forall; [fc; left; reflexivity|].
  induction H as [|j js Hj H IH]; constructor; [apply (valid_printable nan), Hj|exact IH].
Qed.

Lemma not_valid_control nan p c q : c < 32 -> c <> 10 -> ~ valid_stream nan (p ++ c :: q).
Proof.
  intros H1 H2 H. apply stream_printable in H. apply Forall_app in H. destruct H as [_ H].
  apply Forall_cons_iff in H. destruct H as [[H|H] _]; lia.
Qed.
Lemma not_valid_newline nan q : ~ valid_stream nan (10 :: q).
Proof.
  intros H. apply stream_head in H. destruct H as [H|(c & r & E & H)]; [discriminate|]. injection E as <- <-.
  unfold digit in H. lia.
Qed.
Lemma not_valid_brace nan c q : c <> 125 -> c <> 34 \/ (List.length q < 4)%nat -> ~ valid_stream nan (123 :: c :: q).
Proof.
  intros H1 H2 H. apply stream_head in H. destruct H as [H|(c' & r & E & H)]; [discriminate|].
  assert (E1 : c' = 123) by congruence. assert (E2 : r = c :: q) by congruence. subst c' r. unfold digit in H.
  repeat (destruct H as [H|H]; [exfalso; lia|]). destruct H as [_ [(r' & H)|(r' & H & Hl)]]; [congruence|].
  assert (c = 34 /\ q = r') as [-> ->] by (split; congruence). destruct H2 as [H2|H2]; [congruence|lia].
Qed.
