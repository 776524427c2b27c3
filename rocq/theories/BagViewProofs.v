(** What users read, and how operations change it. *)
From Coq Require Import String NArith ZArith List Bool Arith Lia Permutation.
From Verif Require Import ObjectIdModel ObjectIdProofs SchemaModel ItemModel DictModel DictSpec DictProofs
  SourceModel SourceSpec SourceProofs BagModel CollProofs BagProofs LayerProofs ContainerProofs
  MergeModel MergeSourceProofs MergeFold MergeBigProofs MergeLayerProofs BagSpec MergeImplProofs UpdateProofs ReadProofs BagKeysProofs
  BagStateProofs BagStepProofs BagOpsProofs BagRunProofs BagReads.
Import ListNotations.
Local Open Scope nat_scope.
Notation chain := BagModel.chain.

Section View.
Variable asize : ObjectId -> N.
Hypothesis asize_ok : forall a, (asize a <= capacity a)%N.
Variable iter : dmap -> dmap.
Hypothesis any_order : forall m, Permutation (iter m) m.
Notation same_content := (same_content asize).
Notation same_bag := (same_bag asize).
Notation same_bags := (same_bags asize).
Notation merged := (merged asize).
Notation conflict := (conflict asize).
Notation inv := (inv asize).
Notation same_trans := (same_trans asize).
Notation same_sym := (same_sym asize).
Notation same_refl := (same_refl asize).
Notation bags_trans := (bags_trans asize).
Notation bags_refl := (bags_refl asize).
Notation history := (history asize).

Lemma single_reads h a : same_content (content_at h a) (read_through h [a]).
Proof.
  split; [|split]; intros; cbn.
  - rewrite look_attr_in. now destruct (attr_in h (chain h a) attr o).
  - unfold list_in. now destruct (look_list _ _ _).
  - unfold read_dict, dict_in. destruct (look_dict _ _ _) as [d|]; [now destruct (d_get d k)|reflexivity].
Qed.
Lemma own_reads st b : same_content (own (abs st) b) (own_seen st b).
Proof.
  unfold own, own_seen. rewrite abs_nth. destruct (nth_error (bags st) b); [apply single_reads|apply same_refl].
Qed.
Lemma read_overlay h a r : same_content (overlay (read_through h [a]) (read_through h r)) (read_through h (a :: r)).
Proof.
  split; [|split]; intros; cbn.
  - now destruct (look_attr h a attr o).
  - now destruct (look_list _ _ _).
  - now destruct (d_get _ _).
Qed.
Lemma seen_full T st b : inv T st -> has_bag st b -> same_content (full (abs st) b) (seen st b).
Proof.
  intros I Hb. destruct (nth_error (bags st) b) as [x|] eqn:E; [|apply nth_error_None in E; unfold has_bag in Hb; lia].
  eapply same_trans; [eapply flatten_content; eauto|]. unfold seen, impls_of.
  assert (G : forall fs c, (forall f, In f fs -> exists y, nth_error (bags st) f = Some y) -> forall d, same_content c d ->
    same_content (fold_left (fun c f => overlay c (own (abs st) f)) fs c)
      (overlay d (read_through (layers st) (flat_map (fun f => match nth_error (bags st) f with Some x => [impl x] | None => [] end) fs)))).
  { induction fs as [|f fs IH]; intros c Ex d Sd; cbn [fold_left flat_map].
    - eapply same_trans; [exact Sd|]. apply same_sym, overlay_empty.
    - destruct (Ex f (or_introl eq_refl)) as (y & Ey). assert (Oy := own_reads st f). unfold own_seen in Oy. rewrite Ey in Oy |- *. cbn [app].
      eapply same_trans; [apply IH; [intros; apply Ex; now right|apply overlay_same; [exact Sd|exact Oy]]|].
      eapply same_trans; [|apply overlay_same; [apply same_refl|apply read_overlay]].
      split; [|split]; intros; cbn [overlay c_attr c_list c_dict].
      + now destruct (c_attr d attr o).
      + now destruct (c_list d o).
      + now destruct (c_dict d o k). }
  cbn [flat_map]. rewrite E. cbn [app]. eapply same_trans; [|apply read_overlay]. apply G.
  - intros f If. destruct (flatten_in asize T st b f I If) as (y & Ey & _). eauto.
  - assert (Oy := own_reads st b). unfold own_seen in Oy. rewrite E in Oy. exact Oy.
Qed.

(** a list of bags in which the fallbacks are as they should be *)
Definition tidy (s : list abag) : Prop :=
  forall b x, nth_error s b = Some x -> (writable x = true -> falls x = []) /\
    forall f, In f (falls x) -> f < b /\ exists y, nth_error s f = Some y /\ writable y = false.
Lemma inv_tidy T st : inv T st -> tidy (abs st).
Proof.
  intros I b x E. rewrite abs_nth in E. destruct (nth_error (bags st) b) as [y|] eqn:Eb; [|easy]. injection E as <-. cbn [abs_bag writable falls].
  split; [eapply (i_mut _ T st I); eauto|]. intros f If. destruct (i_falls _ T st I b y f Eb If) as (L & z & Ez & M). split; auto.
  exists (abs_bag (layers st) z). split; auto. now rewrite abs_nth, Ez.
Qed.
Lemma full_from_fuel s : tidy s -> forall b d, b < d -> full_from s d b = full s b.
Proof.
  intros Ti. unfold full. induction b as [b IH] using lt_wf_ind. intros d L. destruct d as [|d]; [lia|]. cbn [full_from].
  destruct (nth_error s b) as [x|] eqn:E; auto. f_equal. f_equal. apply map_ext_in. intros f If.
  destruct (proj2 (Ti b x E) f If) as (Lf & _). rewrite (IH f Lf d), (IH f Lf b) by lia. reflexivity.
Qed.
Lemma full_unfold s b x : tidy s -> nth_error s b = Some x ->
  full s b = overlay (data x) (fold_right overlay empty_content (map (full s) (falls x))).
Proof.
  intros Ti E. unfold full at 1. cbn [full_from]. rewrite E. f_equal. f_equal. apply map_ext_in. intros f If.
  apply full_from_fuel; auto. apply (Ti b x E). exact If.
Qed.
Lemma fold_overlay_same (f g : nat -> content) l : (forall x, In x l -> same_content (f x) (g x)) ->
  same_content (fold_right overlay empty_content (map f l)) (fold_right overlay empty_content (map g l)).
Proof.
  induction l as [|x l IH]; intros H; cbn; [apply same_refl|]. apply overlay_same; [apply H; now left|]. apply IH. intros y I. apply H. now right.
Qed.
(** bags that are not writable, and one that may be, keep their contents *)
Definition kept (s s' : list abag) (b : nat) : Prop :=
  exists x x', nth_error s b = Some x /\ nth_error s' b = Some x' /\ same_content (data x) (data x') /\ falls x' = falls x /\
    (writable x = false -> writable x' = false).
Lemma full_kept s s' b : tidy s -> tidy s' -> kept s s' b ->
  (forall f x, nth_error s f = Some x -> writable x = false -> kept s s' f) -> same_content (full s b) (full s' b).
Proof.
  intros Ti Ti'. induction b as [b IH] using lt_wf_ind. intros (x & x' & E & E' & Sd & Fa & _) K.
  rewrite (full_unfold s b x Ti E), (full_unfold s' b x' Ti' E'), Fa. apply overlay_same; auto. apply fold_overlay_same.
  intros f If. destruct (proj2 (Ti b x E) f If) as (L & y & Ey & My). apply IH; eauto.
Qed.
Lemma kept_same s s' b : same_bags s s' -> b < length s -> kept s s' b.
Proof.
  intros F L. destruct (nth_error s b) as [x|] eqn:E; [|apply nth_error_None in E; lia].
  destruct (bags_nth asize s s' b x F E) as (x' & E' & (A & B & C)). exists x, x'. split; auto. split; auto. split; auto. split; auto. congruence.
Qed.
Lemma kept_trans s1 s2 s3 b : kept s1 s2 b -> kept s2 s3 b -> kept s1 s3 b.
Proof.
  intros (x & x2 & E & E2 & A & B & C) (y2 & x3 & E2' & E3 & A' & B' & C'). assert (y2 = x2) by congruence. subst y2.
  exists x, x3. split; auto. split; auto. split; [eapply same_trans; eauto|]. split; [congruence|auto].
Qed.
Lemma nth_set s b x c : nth_error (set_bag s b x) c = if c =? b then (match nth_error s b with Some _ => Some x | None => None end) else nth_error s c.
Proof.
  unfold set_bag. revert b c. induction s as [|y s IH]; intros [|b] [|c]; cbn; auto.
  now destruct (c =? b).
Qed.
Lemma kept_app s x b : b < length s -> kept s (s ++ [x]) b.
Proof.
  intros L. destruct (nth_error s b) as [y|] eqn:E; [|apply nth_error_None in E; lia]. exists y, y. split; auto. split; [now apply nth_app|].
  split; [apply same_refl|]. auto.
Qed.
Lemma kept_set s b x c : c < length s -> (c = b -> exists y, nth_error s b = Some y /\ same_content (data y) (data x) /\ falls x = falls y /\ (writable y = false -> writable x = false)) ->
  kept s (set_bag s b x) c.
Proof.
  intros L H. destruct (nth_error s c) as [y|] eqn:E; [|apply nth_error_None in E; lia]. destruct (Nat.eq_dec c b) as [->|N].
  - destruct (H eq_refl) as (y' & E' & A & B & C). exists y', x. split; [congruence|]. split; [rewrite nth_set, Nat.eqb_refl, E'; auto|]. auto.
  - exists y, y. split; auto. split; [rewrite nth_set; destruct (Nat.eqb_spec c b); [lia|auto]|]. split; [apply same_refl|auto].
Qed.
Lemma set_length s b x : length (set_bag s b x) = length s.
Proof. unfold set_bag. revert b. induction s as [|y s IH]; intros [|b]; cbn; auto. Qed.

(** one step keeps all bags it does not write to, and those that are not writable *)
Lemma step_kept s op s' ok b : step_spec asize s op s' ok -> b < length s ->
  (writes_to b op = true -> forall x, nth_error s b = Some x -> writable x = false) -> kept s s' b.
Proof.
  intros St L W. assert (Sa : forall t, same_bags t s' -> kept s t b -> b < length t -> kept s s' b).
  { intros t F K Lt. eapply kept_trans; [exact K|]. now apply kept_same. }
  assert (Sm : same_bags s s' -> kept s s' b) by (intros F; now apply kept_same).
  assert (Ap : forall x, same_bags (s ++ [x]) s' -> kept s s' b).
  { intros x F. eapply Sa; [exact F|now apply kept_app|rewrite app_length; lia]. }
  assert (Se : forall c x y, nth_error s c = Some x -> writable x = true -> same_bags (set_bag s c y) s' -> (c = b -> writes_to b op = true) -> kept s s' b).
  { intros c x y E M F Wc. eapply Sa; [exact F| |rewrite set_length; lia]. apply kept_set; auto. intros ->. assert (X := W (Wc eq_refl) x E). congruence. }
  destruct op; cbn [step_spec writes_to] in *.
  - destruct St as [_ F]. eauto.
  - destruct (forallb _ _); destruct St as [_ F]; eauto.
  - destruct (nth_error s b0) as [[c w [|? ?]]|]; destruct St as [_ F]; eauto.
  - destruct (nth_error s b0) as [x|]; [destruct (writable x)|]; destruct St as [_ F]; eauto.
  - destruct (nth_error s b0) as [x|] eqn:E; destruct St as [_ F]; auto. eapply Sa; [exact F| |rewrite set_length; lia].
    apply kept_set; auto. intros ->. exists x. cbn. split; auto. split; [apply same_refl|auto].
  - destruct (nth_error s b0) as [x|] eqn:E; [destruct (writable x) eqn:M|]; destruct St as [_ F]; auto.
    eapply Se; [exact E|exact M|exact F|]. intros ->. apply Nat.eqb_refl.
  - destruct (nth_error s b0) as [x|] eqn:E; [destruct (writable x) eqn:M|]; destruct St as [_ F]; auto.
    eapply Se; [exact E|exact M|exact F|]. intros ->. apply Nat.eqb_refl.
  - destruct (nth_error s b0) as [x|] eqn:E; [destruct (writable x) eqn:M|]; destruct St as [_ F]; auto.
    eapply Se; [exact E|exact M|exact F|]. intros ->. apply Nat.eqb_refl.
  - destruct (nth_error s b0) as [x|] eqn:E; [destruct (writable x) eqn:M|]; destruct St as [_ F]; auto.
    eapply Se; [exact E|exact M|exact F|]. intros ->. apply Nat.eqb_refl.
  - destruct (nth_error s b0) as [x|] eqn:E; [destruct (writable x) eqn:M|]; try (destruct St as [_ F]; auto).
    destruct (write_effect _ _); destruct St as [_ F]; auto. eapply Se; [exact E|exact M|exact F|]. intros ->. apply Nat.eqb_refl.
  - destruct (nth_error s b0) as [x|] eqn:E; [destruct (writable x) eqn:M|]; try (destruct St as [_ F]; auto).
    destruct (write_effect _ _); destruct St as [_ F]; auto. eapply Se; [exact E|exact M|exact F|]. intros ->. apply Nat.eqb_refl.
  - destruct (nth_error s b0) as [x|] eqn:E; [|destruct St; auto]. destruct (nth_error s other) as [y|]; [|destruct St; auto].
    destruct (writable x) eqn:M; [|destruct St; auto]. destruct St as (c & F & _). eapply Se; eauto. intros ->. apply Nat.eqb_refl.
  - destruct (nth_error s b0); destruct St as [_ F]; eauto.
  - destruct (nth_error s b0) as [[c w [|? ?]]|]; destruct (nth_error s other); try (destruct St as [_ F]; eauto).
    destruct St as (u & _ & _ & F). eauto.
Qed.

(** ** Histories *)
Lemma history_app ops ops2 : history (ops ++ ops2) -> history ops.
Proof.
  induction ops2 as [|op ops2 IH] using rev_ind; [now rewrite app_nil_r|]. rewrite app_assoc. intros Hi.
  inversion Hi as [E|ops' op' Hi' O F E]; [symmetry in E; apply app_eq_nil in E as [_ E]; easy|]. apply app_inj_tail in E as [-> ->]. auto.
Qed.
Notation after := (after iter).
Lemma after_inv ops : history ops -> exists T, inv T (after ops).
Proof. intros Hi. eexists. exact (history_inv asize asize_ok iter any_order ops Hi). Qed.
Lemma after_seen ops b : history ops -> has_bag (after ops) b -> same_content (full (abs (after ops)) b) (seen (after ops) b).
Proof. intros Hi Hb. destruct (after_inv ops Hi) as [T I]. eapply seen_full; eauto. Qed.
Lemma abs_len st : length (abs st) = length (bags st).
Proof. apply map_length. Qed.
Lemma bag_in st b : has_bag st b -> exists x, nth_error (bags st) b = Some x.
Proof. intros H. destruct (nth_error (bags st) b) as [x|] eqn:E; eauto. apply nth_error_None in E. unfold has_bag in H. lia. Qed.
Lemma run_kept ops ops2 b : history (ops ++ ops2) -> has_bag (after ops) b ->
  (forallb (fun op => negb (writes_to b op)) ops2 = true \/ is_mutable (after ops) b = false) ->
  kept (abs (after ops)) (abs (after (ops ++ ops2))) b.
Proof.
  induction ops2 as [|op ops2 IH] using rev_ind; intros Hi Hb C.
  - rewrite app_nil_r. apply kept_same; [apply bags_refl|]. rewrite abs_len. exact Hb.
  - rewrite app_assoc in *. assert (Hi2 := history_app _ _ Hi).
    assert (K : kept (abs (after ops)) (abs (after (ops ++ ops2))) b).
    { apply IH; auto. destruct C as [C|C]; auto. left. rewrite forallb_app in C. now apply andb_true_iff in C. }
    eapply kept_trans; [exact K|]. destruct K as (x & x' & E & E' & Sd & Fa & Mu).
    apply (step_kept _ op _ _ b (history_step asize asize_ok iter any_order (ops ++ ops2) op Hi)).
    + apply nth_error_Some. fold (after (ops ++ ops2)). congruence.
    + intros W y Ey. fold (after (ops ++ ops2)) in Ey. assert (y = x') by congruence. subst y. destruct C as [C|C].
      * rewrite forallb_app in C. apply andb_true_iff in C as [_ C]. cbn in C. rewrite W in C. easy.
      * apply Mu. rewrite abs_nth in E. unfold is_mutable in C. destruct (nth_error (bags (after ops)) b) as [z|]; [|easy]. injection E as <-. exact C.
Qed.
Lemma kept_has st st' b : kept (abs st) (abs st') b -> has_bag st' b.
Proof. intros (x & x' & _ & E' & _). unfold has_bag. rewrite <- abs_len. apply nth_error_Some. congruence. Qed.
(** ** C15, C16: nothing else changes what is read from a bag *)
Theorem unchanged ops ops2 b : history (ops ++ ops2) -> has_bag (after ops) b ->
  (forallb (fun op => negb (writes_to b op)) ops2 = true \/ is_mutable (after ops) b = false) ->
  has_bag (after (ops ++ ops2)) b /\ same_content (seen (after ops) b) (seen (after (ops ++ ops2)) b).
Proof.
  intros Hi Hb C. assert (K := run_kept ops ops2 b Hi Hb C). assert (Hb' := kept_has _ _ _ K). split; auto.
  assert (Hi1 := history_app _ _ Hi). destruct (after_inv _ Hi1) as [T I]. destruct (after_inv _ Hi) as [T' I'].
  eapply same_trans; [apply same_sym; apply after_seen; auto|]. eapply same_trans; [|apply after_seen; auto].
  apply full_kept; [eapply inv_tidy; eauto|eapply inv_tidy; eauto|exact K|].
  intros f x E M. apply run_kept; auto.
  - unfold has_bag. rewrite <- abs_len. apply nth_error_Some. congruence.
  - right. rewrite abs_nth in E. unfold is_mutable. destruct (nth_error (bags (after ops)) f); [|easy]. injection E as <-. exact M.
Qed.
Theorem stays_immutable ops ops2 b : history (ops ++ ops2) -> has_bag (after ops) b -> is_mutable (after ops) b = false ->
  is_mutable (after (ops ++ ops2)) b = false.
Proof.
  intros Hi Hb M. destruct (run_kept ops ops2 b Hi Hb (or_intror M)) as (x & x' & E & E' & _ & _ & Mu). rewrite abs_nth in E, E'.
  unfold is_mutable in *. destruct (nth_error (bags (after ops)) b) as [y|]; [|easy]. destruct (nth_error (bags (after (ops ++ ops2))) b) as [y'|]; [|easy].
  injection E as <-. injection E' as <-. auto.
Qed.
End View.
