(** Proofs about reducing a stream *)
From Coq Require Import List Bool Arith Lia.
From Verif Require Import ReduceModel ReduceSpec.
Import ListNotations.

Section Proofs.
Variables (value type E : Type).
Variable type_of : value -> type.
Variable type_eqb : type -> type -> bool.
Variable functor : value -> value -> value + E.
Variable initial : value.
Notation state := (state value E).
Notation op := (op value E).
Notation folded := (folded type_of type_eqb functor initial).
Notation due := (due type_of type_eqb functor initial).
Notation routine_step := (routine_step type_of type_eqb functor initial).
Notation step := (step type_of type_eqb functor initial).
Notation run := (run type_of type_eqb functor initial).

Lemma folded_app l1 l2 : forall a, folded a (l1 ++ l2) = match folded a l1 with inl a => folded a l2 | inr e => inr e end.
Proof. induction l1 as [|x l1 IH]; intros a; [reflexivity|]. cbn. destruct (combined _ _ _ _ _ _); auto. Qed.
Lemma due_put_in l c o r : due l c = Some r -> due (fst (put_in (l, c) o)) (snd (put_in (l, c) o)) = Some r.
Proof.
  unfold ReduceSpec.due. destruct o, c as [c|]; cbn; auto.
  - rewrite folded_app. destruct (folded initial l); [discriminate|auto].
  - destruct (folded initial l); [discriminate|]. destruct st; auto.
Qed.
Lemma run_app ops o : run (ops ++ [o]) = step (run ops) o.
Proof. unfold ReduceModel.run. now rewrite fold_left_app. Qed.
Lemma input_app (ops : list op) o : input (ops ++ [o]) = put_in (input ops) o.
Proof. unfold input. now rewrite fold_left_app. Qed.
Lemma skipn_app_le (l r : list value) n : n <= length l -> skipn n (l ++ r) = skipn n l ++ r.
Proof. intros H. rewrite skipn_app. replace (n - length l) with 0 by lia. reflexivity. Qed.
Lemma skipn_nth (l : list value) : forall n x, nth_error l n = Some x -> skipn n l = x :: skipn (S n) l.
Proof. induction l as [|y l IH]; intros [|n] x H; cbn in *; try discriminate; [now injection H as ->|]. now apply IH. Qed.

Definition was_cancelled (ops : list op) : Prop := exists c, In (Cancel c) ops.
Definition settled (ops : list op) (s : state) : Prop :=
  out_status s <> None \/ expired s = true \/ was_cancelled ops \/ In Shutdown ops.
Definition justified (ops : list op) (s : state) (e : error E) : Prop :=
  (due (log s) (in_closed s) = Some (inr e) /\ written s = []) \/
  (exists c, In (Cancel c) ops /\ (e = Cancelled c \/ e = Orphaned)) \/ (In Shutdown ops /\ e = Orphaned).
Definition pc_inv (ops : list op) (s : state) : Prop :=
  match at_ s with
  | Starting | Queued | Reading | Subscribing | Waiting =>
      written s = [] /\ folded initial (log s) = folded (acc s) (skipn (position s) (log s))
  | Calling v => written s = [] /\ folded initial (log s) = folded (acc s) (v :: skipn (position s) (log s))
  | Writing => written s = [] /\ due (log s) (in_closed s) = Some (inl (acc s))
  | Closing => written s = [acc s] /\ due (log s) (in_closed s) = Some (inl (acc s))
  | Failing e => written s = [] /\ due (log s) (in_closed s) = Some (inr e)
  | Leaving | Gone => settled ops s
  end.
Record inv (ops : list op) (s : state) : Prop := {
  i_in : (log s, in_closed s) = input ops;
  i_pos : position s <= length (log s);
  i_can : forall e, cancelled s = Some e -> In (Cancel e) ops;
  i_cg : forall e, cancelling s = Some e -> In (Cancel e) ops /\ flag s = true;
  i_exp : expired s = true -> In Expire ops;
  i_ok : out_status s = Some OK -> exists v, due (log s) (in_closed s) = Some (inl v) /\ written s = [v];
  i_err : forall e, out_status s = Some (Err e) -> justified ops s e;
  i_written : written s = [] \/ exists v, written s = [v] /\ due (log s) (in_closed s) = Some (inl v);
  i_open : flag s = false -> out_status s = None;
  i_flag : flag s = true -> settled ops s;
  i_pc : pc_inv ops s }.

Lemma in_more (ops : list op) o x : In x ops -> In x (ops ++ [o]).
Proof. intros H. apply in_or_app. now left. Qed.
Lemma settled_more ops o s s' : settled ops s -> (out_status s <> None -> out_status s' <> None) ->
  (expired s = true -> expired s' = true) -> settled (ops ++ [o]) s'.
Proof.
  intros [H|[H|[[c H]|H]]] A B; unfold settled; [left; auto|right; left; auto|right; right; left; exists c; now apply in_more|].
  right; right; right. now apply in_more.
Qed.
Lemma justified_more ops o s s' e : justified ops s e -> log s' = log s -> in_closed s' = in_closed s -> written s' = written s ->
  justified (ops ++ [o]) s' e.
Proof.
  unfold justified. intros [H|[(c & H & K)|[H K]]] -> -> ->; [now left|right; left; exists c; split; [now apply in_more|exact K]|].
  right; right. split; [now apply in_more|exact K].
Qed.

(** A step that does not touch the input *)
Lemma weaken ops o s : inv ops s -> put_in (input ops) o = input ops -> inv (ops ++ [o]) s.
Proof.
  intros V P. destruct V as [A B C D F G H K L M N]. constructor; auto.
  - now rewrite input_app, P.
  - intros e X. apply in_more. auto.
  - intros e X. destruct (D e X) as [X1 X2]. split; [now apply in_more|exact X2].
  - intros X. apply in_more. auto.
  - intros e X. eapply justified_more; eauto.
  - intros X. eapply settled_more; eauto.
  - unfold pc_inv in *. destruct (at_ s); auto; eapply settled_more; eauto.
Qed.
(** To another place *)
Lemma goto_inv ops s p : inv ops s -> pc_inv ops (goto p s) -> inv ops (goto p s).
Proof. intros [A B C D F G H K L M N] Q. constructor; auto. Qed.

Lemma close_inv ops s st p : inv ops s ->
  (flag s = false -> expired s = false ->
     match st with OK => exists v, due (log s) (in_closed s) = Some (inl v) /\ written s = [v] | Err e => justified ops s e end) ->
  p = Leaving \/ p = Gone -> inv ops (goto p (try_close st s)).
Proof.
  intros V J P. destruct V as [A B C D F G H K L M N].
  assert (S : settled ops (try_close st s)).
  { unfold try_close. destruct (flag s) eqn:X; [exact (M eq_refl)|]. unfold settled. cbn.
    destruct (expired s); [now right; left|left; discriminate]. }
  assert (I : inv ops (goto p (try_close st s))).
  { assert (Q : pc_inv ops (goto p (try_close st s))).
    { unfold pc_inv. destruct P as [-> | ->]; cbn; exact S. }
    unfold try_close in *. destruct (flag s) eqn:X; [constructor; auto; cbn; rewrite X; auto|].
    constructor; cbn; auto.
    - intros e Y. destruct (D e Y) as [_ Z]. congruence.
    - destruct (expired s) eqn:Y; [rewrite (L eq_refl); discriminate|]. intros Z. injection Z as ->. exact (J eq_refl eq_refl).
    - intros e. destruct (expired s) eqn:Y; [rewrite (L eq_refl); discriminate|]. intros Z. injection Z as ->. exact (J eq_refl eq_refl).
    - discriminate. }
  exact I.
Qed.

Lemma orphaned_settled ops s : inv ops s -> orphaned s = true -> settled ops s.
Proof.
  intros V O. unfold orphaned in O. apply orb_prop in O. destruct O as [O|O]; [exact (i_flag _ _ V O)|]. right; left. exact O.
Qed.
Lemma interrupted_settled ops s : inv ops s -> interrupted s = true -> settled ops s.
Proof.
  intros V O. unfold interrupted in O. destruct (cancelled s) as [c|] eqn:C; [|now apply orphaned_settled].
  right; right; left. exists c. exact (i_can _ _ V c C).
Qed.

Lemma routine_inv ops s : inv ops s -> inv ops (routine_step s).
Proof.
  intros V. pose proof (i_pc _ _ V) as P. unfold pc_inv in P. unfold ReduceModel.routine_step.
  destruct (at_ s) as [| | |v| | |e| | | |] eqn:A.
  - destruct (interrupted s) eqn:I; (apply goto_inv; [exact V|]); [exact (interrupted_settled _ _ V I)|exact P].
  - apply goto_inv; [exact V|]; exact P.
  - destruct P as [W P]. destruct (nth_error (log s) (position s)) as [v|] eqn:NE.
    + destruct V as [A1 B C D F G H K L M N].
      assert (position s < length (log s)) by (apply nth_error_Some; congruence).
      constructor; auto. unfold pc_inv. cbn [at_ written log acc position]. split; [exact W|].
      rewrite P. now rewrite (skipn_nth _ _ _ NE).
    + assert (Z : skipn (position s) (log s) = []) by (apply skipn_all2; now apply nth_error_None).
      rewrite Z in P. destruct (in_closed s) as [[e|]|] eqn:IC; (apply goto_inv; [exact V|]); unfold pc_inv; cbn [at_ goto written log in_closed acc position].
      * split; [exact W|]. unfold ReduceSpec.due. rewrite P, IC. reflexivity.
      * split; [exact W|]. unfold ReduceSpec.due. rewrite P, IC. reflexivity.
      * split; [exact W|]. now rewrite Z.
  - destruct P as [W P]. destruct (orphaned s) eqn:O; [apply goto_inv; [exact V|]; exact (orphaned_settled _ _ V O)|].
    cbn in P. unfold combined in P.
    destruct (functor (acc s) v) as [r|e]; [destruct (type_eqb _ _)|].
    + destruct V as [A1 B C D F G H K L M N]. constructor; auto. now split.
    + destruct V as [A1 B C D F G H K L M N]. constructor; auto. split; [exact W|]. unfold ReduceSpec.due. cbn. now rewrite P.
    + apply goto_inv; [exact V|]. split; [exact W|]. unfold ReduceSpec.due. cbn. now rewrite P.
  - destruct P as [W P]. unfold try_write. destruct (expired s) eqn:X; [apply goto_inv; [exact V|]; right; left; exact X|].
    destruct (out_status s) eqn:O; [apply goto_inv; [exact V|]; left; cbn; congruence|].
    destruct V as [A1 B C D F G H K L M N]. constructor; cbn; auto; try congruence.
    + rewrite W. right. exists (acc s). now split.
    + intros Y. unfold settled in *. cbn. rewrite O, X in M. exact (M Y).
    + unfold pc_inv. cbn. rewrite W. now split.
  - destruct P as [W P]. apply close_inv; auto. intros _ _. exists (acc s). now split.
  - destruct P as [W P]. apply close_inv; auto. intros _ _. left. now split.
  - destruct (interrupted s) eqn:I; (apply goto_inv; [exact V|]); [exact (interrupted_settled _ _ V I)|exact P].
  - exact V.
  - apply close_inv; auto. intros X Y. pose proof (i_open _ _ V X) as O.
    destruct P as [P|[P|[[c P]|P]]]; [congruence|congruence| |].
    + right; left. exists c. auto.
    + right; right. auto.
  - exact V.
Qed.

Lemma step_inv ops s o : inv ops s -> inv (ops ++ [o]) (step s o).
Proof.
  intros V. destruct o as [| |v|st| |e| | |].
  - cbn [ReduceModel.step]. apply weaken; [now apply routine_inv|now destruct (input ops) as [? []]].
  - cbn [ReduceModel.step]. apply weaken; [|now destruct (input ops) as [? []]].
    pose proof (i_pc _ _ V) as P. unfold pc_inv in P. destruct (at_ s) eqn:A; try exact V. destruct (ready s); [|exact V].
    destruct (interrupted s) eqn:I; (apply goto_inv; [exact V|]); [exact (interrupted_settled _ _ V I)|exact P].
  - cbn [ReduceModel.step]. destruct (in_closed s) as [c|] eqn:IC.
    + apply weaken; [exact V|]. rewrite <- (i_in _ _ V), IC. reflexivity.
    + destruct V as [A B C D F G H K L M N].
      assert (Q : forall r, due (log s) None = Some r -> due (log s ++ [v]) None = Some r) by (intros r; exact (due_put_in (log s) None (Write_input v) r)).
      rewrite IC in G, K. assert (H' : forall e, out_status s = Some (Err e) -> (due (log s) None = Some (inr e) /\ written s = []) \/
          (exists c, In (Cancel c) ops /\ (e = Cancelled c \/ e = Orphaned)) \/ (In Shutdown ops /\ e = Orphaned)).
      { intros e X. specialize (H e X). unfold justified in H. now rewrite IC in H. }
      constructor; cbn.
      * rewrite input_app, <- A, IC. reflexivity.
      * rewrite app_length. lia.
      * intros e X. apply in_more. auto.
      * intros e X. destruct (D e X) as [X1 X2]. split; [now apply in_more|exact X2].
      * intros X. apply in_more. auto.
      * intros X. destruct (G X) as (x & Y & Z). exists x. auto.
      * intros e X. unfold justified. cbn. destruct (H' e X) as [[Y Z]|[(c & Y & Z)|[Y Z]]]; [now left; auto|right; left; exists c; split; [now apply in_more|exact Z]|].
        right; right. split; [now apply in_more|exact Z].
      * destruct K as [K|(x & K & Y)]; [now left|right; exists x; auto].
      * exact L.
      * intros X. eapply settled_more; [exact (M X)|auto|auto].
      * unfold pc_inv in *. cbn. rewrite IC in N. destruct (at_ s); cbn.
        1-3,8-9: destruct N as [N1 N2]; split; [exact N1|]; rewrite skipn_app_le by exact B; rewrite !folded_app, N2; reflexivity.
        all: try (destruct N as [N1 N2]; split; [exact N1|now apply Q]).
        -- destruct N as [N1 N2]; split; [exact N1|]. rewrite skipn_app_le by exact B. rewrite folded_app, N2. cbn.
           destruct (combined _ _ _ _ _ _); [now rewrite folded_app|reflexivity].
        -- eapply settled_more; [exact N|auto|auto].
        -- eapply settled_more; [exact N|auto|auto].
  - cbn [ReduceModel.step]. destruct (in_closed s) as [c|] eqn:IC.
    + apply weaken; [exact V|]. rewrite <- (i_in _ _ V), IC. reflexivity.
    + destruct V as [A B C D F G H K L M N].
      assert (Q : forall r, due (log s) None = Some r -> due (log s) (Some st) = Some r) by (intros r; exact (due_put_in (log s) None (Close_input st) r)).
      rewrite IC in G, K. assert (H' : forall e, out_status s = Some (Err e) -> (due (log s) None = Some (inr e) /\ written s = []) \/
          (exists c, In (Cancel c) ops /\ (e = Cancelled c \/ e = Orphaned)) \/ (In Shutdown ops /\ e = Orphaned)).
      { intros e X. specialize (H e X). unfold justified in H. now rewrite IC in H. }
      constructor; cbn.
      * rewrite input_app, <- A, IC. reflexivity.
      * exact B.
      * intros e X. apply in_more. auto.
      * intros e X. destruct (D e X) as [X1 X2]. split; [now apply in_more|exact X2].
      * intros X. apply in_more. auto.
      * intros X. destruct (G X) as (x & Y & Z). exists x. auto.
      * intros e X. unfold justified. cbn. destruct (H' e X) as [[Y Z]|[(c & Y & Z)|[Y Z]]]; [now left; auto|right; left; exists c; split; [now apply in_more|exact Z]|].
        right; right. split; [now apply in_more|exact Z].
      * destruct K as [K|(x & K & Y)]; [now left|right; exists x; auto].
      * exact L.
      * intros X. eapply settled_more; [exact (M X)|auto|auto].
      * unfold pc_inv in *. cbn. rewrite IC in N. destruct (at_ s); cbn; auto.
        all: try (destruct N as [N1 N2]; split; [exact N1|now apply Q]).
        all: eapply settled_more; [exact N|auto|auto].
  - apply (weaken ops Expire) in V; [|now destruct (input ops) as [? []]]. cbn [ReduceModel.step].
    destruct V as [A B C D F G H K L M N]. constructor; cbn; auto.
    + intros _. apply in_or_app. right. now left.
    + intros _. right; left. reflexivity.
    + unfold pc_inv in *. cbn. destruct (at_ s); auto; right; left; reflexivity.
  - apply (weaken ops (Cancel e)) in V; [|now destruct (input ops) as [? []]]. cbn [ReduceModel.step].
    destruct (cancelled s) eqn:X; [exact V|]. destruct V as [A B C D F G H K L M N]. constructor; cbn; auto.
    intros c Y. injection Y as ->. apply in_or_app. right. now left.
  - apply (weaken ops Call_on_cancel) in V; [|now destruct (input ops) as [? []]]. cbn [ReduceModel.step].
    destruct (cancelled s) as [e|] eqn:X; [|exact V]. destruct (notified s); [exact V|].
    assert (R : inv (ops ++ [Call_on_cancel])
      (State (log s) (in_closed s) (position s) (at_ s) (acc s) (written s) (out_status s) true
            (expired s) (Some e) true (if flag s then cancelling s else Some e))).
    { destruct V as [A B C D F G H K L M N]. assert (Y := C e X). constructor; cbn; auto.
      + intros c Z. congruence.
      + intros c Z. destruct (flag s); [destruct (D c Z); auto|]. injection Z as <-. auto.
      + discriminate.
      + intros _. right; right; left. now exists e. }
    destruct (at_ s); try exact R; exact V.
  - apply (weaken ops Close_cancelled) in V; [|now destruct (input ops) as [? []]]. cbn [ReduceModel.step].
    destruct (cancelling s) as [e|] eqn:X; [|exact V].
    destruct V as [A B C D F G H K L M N]. destruct (D e X) as [Y Z].
    assert (T : forall b : option (status E), settled (ops ++ [Close_cancelled]) (State (log s) (in_closed s) (position s) (at_ s) (acc s) (written s) b (flag s)
            (expired s) (cancelled s) (notified s) None)) by (intros b; right; right; left; now exists e).
    constructor; cbn; auto.
    + discriminate.
    + destruct (expired s); [exact G|discriminate].
    + intros c. destruct (expired s); [exact (H c)|]. intros W. injection W as <-. right; left. exists e. auto.
    + congruence.
    + unfold pc_inv in *. cbn. destruct (at_ s); auto; apply T.
  - apply (weaken ops Shutdown) in V; [|now destruct (input ops) as [? []]]. cbn [ReduceModel.step].
    destruct (at_ s) eqn:X; try exact V. apply goto_inv; [exact V|]. right; right; right. apply in_or_app. right. now left.
Qed.

Lemma run_inv ops : inv ops (run ops).
Proof.
  induction ops as [|o ops IH] using rev_ind.
  - constructor; cbn; auto; try discriminate.
  - rewrite run_app. now apply step_inv.
Qed.

Lemma top_value ops : written (run ops) = [] \/
  exists v, written (run ops) = [v] /\ due (fst (input ops)) (snd (input ops)) = Some (inl v).
Proof. destruct (i_written _ _ (run_inv ops)) as [H|H]; [now left|right]. rewrite <- (i_in _ _ (run_inv ops)). exact H. Qed.
Lemma top_success ops : out_status (run ops) = Some OK ->
  exists v, due (fst (input ops)) (snd (input ops)) = Some (inl v) /\ written (run ops) = [v].
Proof. intros H. rewrite <- (i_in _ _ (run_inv ops)). exact (i_ok _ _ (run_inv ops) H). Qed.
Lemma top_error ops e : out_status (run ops) = Some (Err e) ->
  (due (fst (input ops)) (snd (input ops)) = Some (inr e) /\ written (run ops) = []) \/
  (exists c, In (Cancel c) ops /\ (e = Cancelled c \/ e = Orphaned)) \/ (In Shutdown ops /\ e = Orphaned).
Proof. intros H. rewrite <- (i_in _ _ (run_inv ops)). exact (i_err _ _ (run_inv ops) e H). Qed.

Lemma top_complete ops : ~ In Expire ops -> (forall e, ~ In (Cancel e) ops) -> ~ In Shutdown ops ->
  at_ (run ops) = Gone \/ (at_ (run ops) = Waiting /\ ready (run ops) = false) ->
  match due (fst (input ops)) (snd (input ops)) with
  | None => written (run ops) = [] /\ out_status (run ops) = None
  | Some (inl v) => written (run ops) = [v] /\ out_status (run ops) = Some OK
  | Some (inr e) => written (run ops) = [] /\ out_status (run ops) = Some (Err e)
  end.
Proof.
  intros X C S D. pose proof (run_inv ops) as V. rewrite <- (i_in _ _ V). cbn [fst snd].
  set (s := run ops) in *.
  assert (ST : match out_status s with
               | None => True
               | Some OK => exists v, due (log s) (in_closed s) = Some (inl v) /\ written s = [v]
               | Some (Err e) => due (log s) (in_closed s) = Some (inr e) /\ written s = []
               end).
  { destruct (out_status s) as [[|e]|] eqn:O; [exact (i_ok _ _ V O)| |exact Logic.I].
    destruct (i_err _ _ V e O) as [H|[(c & H & _)|[H _]]]; [exact H|now destruct (C c)|now destruct S]. }
  pose proof (i_pc _ _ V) as P. unfold pc_inv in P.
  destruct D as [D|[D R]]; rewrite D in P.
  - destruct P as [P|[P|[[c P]|P]]]; [|destruct X; exact (i_exp _ _ V P)|now destruct (C c)|now destruct S].
    destruct (out_status s) as [[|e]|]; [| |congruence].
    + destruct ST as (v & -> & ->). auto.
    + destruct ST as (-> & ->). auto.
  - destruct P as [W P]. unfold ready in R. destruct (nth_error (log s) (position s)) eqn:NE; [discriminate|].
    destruct (in_closed s) eqn:IC; [discriminate|].
    rewrite skipn_all2 in P by (now apply nth_error_None). cbn in P.
    assert (Z : due (log s) None = None) by (unfold ReduceSpec.due; now rewrite P).
    rewrite Z in *. split; [exact W|]. destruct (out_status s) as [[|e]|]; [| |reflexivity].
    + destruct ST as (v & K & _). discriminate.
    + destruct ST as (K & _). discriminate.
Qed.

(** * It goes on *)
Definition rank (s : state) : nat :=
  match at_ s with
  | Starting => 9
  | Queued => 6
  | Reading => 5
  | Calling _ => 6
  | Writing => 3
  | Closing | Failing _ => 2
  | Subscribing => if ready s then 8 else 3
  | Waiting => if ready s then 7 else 2
  | Leaving => 1
  | Gone => 0
  end.
Definition work (s : state) : nat := 2 * (length (log s) - position s) + rank s.
Ltac ranks A := unfold work, rank; rewrite ?A; cbn; lia.
Lemma routine_works s : at_ s <> Gone -> at_ s <> Waiting -> work (routine_step s) < work s.
Proof.
  intros G N. unfold ReduceModel.routine_step.
  destruct (at_ s) as [| | |v| | |e| | | |] eqn:A; try congruence.
  - destruct (interrupted s); ranks A.
  - ranks A.
  - destruct (nth_error (log s) (position s)) as [v|] eqn:NE.
    + assert (position s < length (log s)) by (apply nth_error_Some; congruence). ranks A.
    + destruct (in_closed s) as [[]|] eqn:IC; [ranks A|ranks A|].
      unfold work, rank. rewrite A. cbn. unfold ready. cbn. rewrite NE, IC. lia.
  - destruct (orphaned s); [ranks A|]. destruct (functor _ _); [destruct (type_eqb _ _)|]; ranks A.
  - unfold try_write. destruct (expired s); [ranks A|]. destruct (out_status s); ranks A.
  - unfold try_close. destruct (flag s); ranks A.
  - unfold try_close. destruct (flag s); ranks A.
  - destruct (interrupted s); unfold work, rank; rewrite A; cbn [at_ goto log position];
      change (ready (goto Waiting s)) with (ready s); destruct (ready s); lia.
  - unfold try_close. destruct (flag s); ranks A.
Qed.
Lemma notify_works s : at_ s = Waiting -> ready s = true -> work (step s Notify) < work s.
Proof. intros A R. cbn [ReduceModel.step]. rewrite A, R. unfold work, rank. rewrite A, R. destruct (interrupted s); cbn; lia. Qed.

(** Left alone, the routine gets to its end or waits for input *)
Definition rests (s : state) : Prop := at_ s = Gone \/ (at_ s = Waiting /\ ready s = false).
Lemma advance s : ~ rests s -> exists o, (o = Step \/ o = Notify) /\ work (step s o) < work s.
Proof.
  intros R. destruct (at_ s) eqn:A; try (exists Step; split; [now left|apply routine_works; congruence]).
  - destruct (ready s) eqn:X; [exists Notify; split; [now right|now apply notify_works]|]. destruct R. right. auto.
  - destruct R. now left.
Qed.
Lemma comes_to_rest : forall n ops, work (run ops) <= n ->
  exists more, Forall (fun o => o = Step \/ o = Notify) more /\ length more <= n /\ rests (run (ops ++ more)).
Proof.
  induction n as [|n IH]; intros ops W.
  - exists []. rewrite app_nil_r. repeat split; auto.
    assert (D : rests (run ops) \/ ~ rests (run ops)).
    { unfold rests. destruct (at_ (run ops)); try (right; intros [?|[? _]]; discriminate); [|left; now left].
      destruct (ready (run ops)); [right; intros [?|[_ ?]]; discriminate|left; now right]. }
    destruct D as [D|D]; [exact D|]. destruct (advance _ D) as (o & _ & L). lia.
  - assert (D : rests (run ops) \/ ~ rests (run ops)).
    { unfold rests. destruct (at_ (run ops)); try (right; intros [?|[? _]]; discriminate); [|left; now left].
      destruct (ready (run ops)); [right; intros [?|[_ ?]]; discriminate|left; now right]. }
    destruct D as [D|D]; [exists []; rewrite app_nil_r; repeat split; auto; cbn; lia|].
    destruct (advance _ D) as (o & O & L). destruct (IH (ops ++ [o])) as (more & A & B & C); [rewrite run_app; lia|].
    exists (o :: more). repeat split; [now constructor|cbn; lia|]. now rewrite <- app_assoc in C.
Qed.
Lemma input_same (ops more : list op) : Forall (fun o => o = Step \/ o = Notify) more -> input (ops ++ more) = input ops.
Proof.
  intros F. unfold input. rewrite fold_left_app. induction F as [|o more O _ IH]; [reflexivity|]. cbn [fold_left].
  replace (put_in (fold_left put_in ops ([], None)) o) with (fold_left put_in ops ([], None)); [exact IH|].
  destruct O as [-> | ->]; now destruct (fold_left put_in ops ([], None)) as [? []].
Qed.
Lemma top_ends ops : ~ In Expire ops -> (forall e, ~ In (Cancel e) ops) -> ~ In Shutdown ops ->
  exists more, Forall (fun o => o = Step \/ o = Notify) more /\
  match due (fst (input ops)) (snd (input ops)) with
  | None => written (run (ops ++ more)) = [] /\ out_status (run (ops ++ more)) = None
  | Some (inl v) => written (run (ops ++ more)) = [v] /\ out_status (run (ops ++ more)) = Some OK
  | Some (inr e) => written (run (ops ++ more)) = [] /\ out_status (run (ops ++ more)) = Some (Err e)
  end.
Proof.
  intros X C S. destruct (comes_to_rest (work (run ops)) ops (le_n _)) as (more & F & _ & R).
  exists more. split; [exact F|]. rewrite <- (input_same ops more F).
  assert (N : forall o, In o more -> o = Step \/ o = Notify) by (apply Forall_forall; exact F).
  apply top_complete; [| | |exact R].
  - intros H. apply in_app_or in H. destruct H as [H|H]; [auto|]. destruct (N _ H); discriminate.
  - intros e H. apply in_app_or in H. destruct H as [H|H]; [now apply (C e)|]. destruct (N _ H); discriminate.
  - intros H. apply in_app_or in H. destruct H as [H|H]; [auto|]. destruct (N _ H); discriminate.
Qed.
End Proofs.
