(** Merging one layer with its parents into another. *)
From Coq Require Import String NArith ZArith List Bool Arith Lia Permutation.
From Verif Require Import ObjectIdModel ObjectIdProofs SchemaModel ItemModel DictModel DictSpec DictProofs
  SourceModel SourceSpec SourceProofs BagModel CollProofs BagProofs LayerProofs ContainerProofs
  MergeModel MergeSourceProofs MergeFold MergeBigProofs.
From Coq Require Import ZifyBool ZifyN.
Import ListNotations.
Local Open Scope nat_scope.
Notation chain := BagModel.chain.

Section MergeLayer.
Variable asize : ObjectId -> N.
Hypothesis asize_ok : forall a, (asize a <= capacity a)%N.
Notation valid := (valid asize).
Notation real := (real asize).
Notation layer_ok := (layer_ok asize).
Notation coll_ok := (coll_ok asize).
Notation heap_ok := (heap_ok asize).
Notation good_coll := (good_coll asize).
Notation good_ch := (good_ch asize).

(** ** Chains *)
Definition ch_good (h : heap) (ch : list (nat * layer)) : Prop :=
  good_ch h ch /\
  (forall pre x l r, ch = pre ++ (x, l) :: r -> nth_error h x = Some l /\
     (forall k c, a_find key_dec (big l) k = Some c -> coll_ok h r k c) /\
     (forall attr m, a_find string_dec (small l) attr = Some m -> small_ok asize m) /\
     (forall alloc v, a_find oid_eq_dec (lists l) alloc = Some v -> is_allocation alloc /\ lv_size v = capacity alloc) /\
     (forall alloc v, a_find oid_eq_dec (dicts l) alloc = Some v -> is_allocation alloc /\ forall i, good_keys (od_data (v i)))).
Lemma chain_suffix h : heap_ok h -> forall b pre x l r, chain h b = pre ++ (x, l) :: r -> (x, l) :: r = chain h x.
Proof.
  intros H b. induction b as [b IH] using lt_wf_ind. intros pre x l r E.
  assert (I : In (x, l) (chain h b)) by (rewrite E; apply in_app_iff; right; now left).
  destruct (nth_error h b) as [bl|] eqn:Eb.
  - assert (Eq := chain_unfold asize h b bl H Eb). rewrite Eq in E. destruct pre as [|z pre].
    + cbn in E. rewrite <- E in *. assert (b = x) by congruence. subst x. now rewrite Eq.
    + cbn in E. assert (E2 : ups h bl = pre ++ (x, l) :: r) by congruence. unfold ups in E2. destruct (parent bl) as [p|] eqn:P; [|now destruct pre].
      destruct (heap_ok_parent asize h b bl p H Eb P) as (Lp & _). exact (IH p Lp pre x l r E2).
  - exfalso. unfold chain in E. destruct b; cbn [chain_from] in E; rewrite Eb in E; now destruct pre.
Qed.
Lemma chain_good h b : heap_ok h -> ch_good h (chain h b).
Proof.
  intros H. split; [now apply heap_good_ch|]. intros pre x l r E.
  assert (I : In (x, l) (chain h b)) by (rewrite E; apply in_app_iff; right; now left).
  destruct (chain_in asize h H b x l I) as (Ex & _). split; auto.
  assert (U : r = ups h l).
  { apply (chain_suffix h H b) in E. rewrite (chain_unfold asize h x l H Ex) in E. now injection E. }
  subst r. destruct (H x l Ex) as (_ & S & B & Li & D). auto.
Qed.
Lemma ups_good h a l : heap_ok h -> layer_ok h a l -> ch_good h (ups h l).
Proof.
  intros H L. unfold ups. destruct (parent l) as [p|]; [now apply chain_good|].
  split; [intros x lx k c []|]. intros pre x lx r E. now destruct pre.
Qed.
Lemma ch_good_ok h ch : ch_good h ch -> ch_ok h ch.
Proof.
  intros [G F] x l k c I Fk. apply in_split in I as (pre & r & E). destruct (F pre x l r E) as (_ & C & _). exact (proj1 (proj2 (proj2 (C k c Fk)))).
Qed.
Lemma ext_ch_good h h' ch : ch_good h ch -> ext h h' -> (forall x l, In (x, l) ch -> nth_error h' x = Some l) -> ch_good h' ch.
Proof.
  intros GF X K. assert (O := ch_good_ok _ _ GF). destruct GF as [G F]. split.
  - intros x l k c I Fk. apply (ext_good_coll asize h); auto; [exact (O x l k c I Fk)|exact (G x l k c I Fk)].
  - intros pre x l r E. destruct (F pre x l r E) as (Ex & C & R). split; [apply K; rewrite E; apply in_app_iff; right; now left|].
    split; auto. intros k c Fk. apply (ext_coll_ok asize h); auto.
    intros y ly k' c' I. apply (O y ly k' c'). rewrite E. apply in_app_iff. right. now right.
Qed.

(** ** Pointers to the same sources *)
Definition sparse_at (at_ : nat -> option layer) (k : key) (x : nat) : option sparse :=
  bind (at_ x) (fun l => bind (a_find key_dec (big l) k) msparse).
Definition dense_at (at_ : nat -> option layer) (k : key) (x : nat) : option dense :=
  bind (at_ x) (fun l => bind (a_find key_dec (big l) k) (fun c =>
    or_else (mdense c) (match cdense c with Some (CVal d) => Some d | _ => None end))).
Lemma ids_resolve h at_ ch k : good_ch h ch ->
  (forall x l, In (x, l) ch -> at_ x = Some l) ->
  (forall x l c b, In (x, l) ch -> a_find key_dec (big l) k = Some c -> cdense c = Some (CShared b) -> at_ b = nth_error h b) ->
  map Some (fst (data_sources h ch k)) = map (sparse_at at_ k) (fst (source_ids h ch k)) /\
  snd (data_sources h ch k) = bind (snd (source_ids h ch k)) (dense_at at_ k).
Proof.
  intros G A B. induction ch as [|[x l] ch IH]; [split; reflexivity|].
  assert (IH' := IH (good_ch_tl asize h _ _ G) (fun y ly I => A y ly (or_intror I)) (fun y ly c b I => B y ly c b (or_intror I))). clear IH.
  cbn [data_sources source_ids]. destruct (a_find key_dec (big l) k) as [c|] eqn:F; [|exact IH'].
  assert (Ax := A x l (or_introl eq_refl)).
  assert (Sx : sparse_at at_ k x = msparse c) by (unfold sparse_at; rewrite Ax; cbn [bind]; now rewrite F).
  assert (Dx : dense_at at_ k x = or_else (mdense c) (match cdense c with Some (CVal d) => Some d | _ => None end)).
  { unfold dense_at. rewrite Ax. cbn [bind]. now rewrite F. }
  assert (Gc := G x l k c (or_introl eq_refl) F). destruct Gc as (_ & _ & Gm & Gc).
  assert (Q : forall ss d is_ j, map Some ss = map (sparse_at at_ k) is_ -> d = bind j (dense_at at_ k) ->
    let r := (match msparse c with Some s => s :: ss | None => ss end, d : option dense) in
    let i := (match msparse c with Some _ => x :: is_ | None => is_ end, j) in
    map Some (fst r) = map (sparse_at at_ k) (fst i) /\ snd r = bind (snd i) (dense_at at_ k)).
  { intros ss d is_ j E1 E2. cbn. split; auto. destruct (msparse c); cbn; auto. now rewrite E1, Sx. }
  destruct (mdense c) as [d|] eqn:M; [apply Q; cbn; auto|].
  destruct (cdense c) as [[d|b]|] eqn:C.
  - unfold cd_of at 1 2. rewrite C. apply Q; cbn; auto.
  - assert (Bb := B x l c b (or_introl eq_refl) F C).
    assert (Db : dense_at at_ k b = cd_of h k c).
    { destruct Gc as (Lp & d & Ed & Gd). revert Ed. unfold dense_at, cd_of. rewrite C, Bb. destruct (nth_error h b) as [bl|]; [|easy].
      cbn [bind]. destruct (a_find key_dec (big bl) k) as [cb|]; [|easy]. cbn [bind]. now destruct (mdense cb). }
    destruct (cd_of h k c) as [d|] eqn:Cd; [|destruct Gc as (_ & d & Ed & _); congruence].
    apply Q; cbn; auto.
  - rewrite (cd_of_none _ _ _ C). destruct (lookup_parent c).
    + destruct (data_sources h ch k) as [ss d], (source_ids h ch k) as [is_ j]. apply Q; apply IH'.
    + apply Q; reflexivity.
Qed.
Lemma ids_same h at_ ch ch' k : good_ch h ch -> good_ch h ch' ->
  (forall x l, In (x, l) ch -> at_ x = Some l) -> (forall x l, In (x, l) ch' -> at_ x = Some l) ->
  (forall x l c b, In (x, l) ch -> a_find key_dec (big l) k = Some c -> cdense c = Some (CShared b) -> at_ b = nth_error h b) ->
  (forall x l c b, In (x, l) ch' -> a_find key_dec (big l) k = Some c -> cdense c = Some (CShared b) -> at_ b = nth_error h b) ->
  source_ids h ch k = source_ids h ch' k -> forall o, look_big h ch k o = look_big h ch' k o.
Proof.
  intros G G' A A' B B' E o.
  destruct (ids_resolve h at_ ch k G A B) as [S1 D1]. destruct (ids_resolve h at_ ch' k G' A' B') as [S2 D2].
  rewrite E in S1, D1. rewrite <- S2 in S1. rewrite <- D2 in D1.
  assert (Dt := data_sources_ok asize h ch k G). assert (Do := data_sources_ok asize h ch' k G').
  destruct (data_sources h ch k) as [ss d], (data_sources h ch' k) as [ss' d']. cbn in *. subst d'.
  assert (ss = ss') as <-.
  { clear -S1. revert ss' S1. induction ss as [|s ss IH]; intros [|s' ss']; cbn; try easy. intros E. injection E as -> E. now rewrite (IH ss' E). }
  destruct Dt as (_ & _ & W). destruct Do as (_ & _ & W'). now rewrite <- W, W'.
Qed.

(** ** The setting: [och] is merged into layers on top of [rest] *)
Section Setting.
Variable h : heap.
Variable a : nat.
Variable rest och : list (nat * layer).
Variable other_frozen : bool.
Hypothesis Gr : ch_good h rest.
Hypothesis Go : ch_good h och.
Hypothesis Fz : forall x xl, In (x, xl) och -> frozen xl = other_frozen \/ frozen xl = true.
(** [a] is not among the others, and has no sources of them *)
Hypothesis Ar : ~ In a (map fst rest).
Hypothesis Ao : ~ In a (map fst och).
Hypothesis Al : forall bl, nth_error h a = Some bl -> frozen bl = false \/ big bl = [].

(** the layers that [a] may stand for in the meantime *)
Definition bigs_ok (l : layer) : Prop := forall k c, a_find key_dec (big l) k = Some c -> coll_ok h rest k c.
Definition stop_ok (l : layer) (stop : option nat) : Prop :=
  forall pre s sl r, och = pre ++ (s, sl) :: r -> stop = Some s -> is_pristine l = true /\ rest = (s, sl) :: r.

Definition shares_not (c : coll) : Prop := forall b, cdense c = Some (CShared b) -> b <> a.

Lemma shared_not_a k c : good_coll h k c -> shared_ok h c -> shares_not c.
Proof.
  intros G S b Cs ->. unfold shared_ok in S. rewrite Cs in S. destruct S as (bl & E & F).
  destruct (Al bl E) as [X|X]; [congruence|]. destruct G as (_ & _ & _ & Gc). rewrite Cs in Gc. destruct Gc as (_ & d & Ed & _).
  unfold cd_of in Ed. rewrite Cs, E, X in Ed. discriminate.
Qed.
Lemma same_views l k : good_ch h ((a, l) :: rest) -> bigs_ok l ->
  source_ids h ((a, l) :: rest) k = source_ids h och k -> forall o, look_big h ((a, l) :: rest) k o = look_big h och k o.
Proof.
  intros G B.
  apply (ids_same h (fun x => if x =? a then Some l else nth_error h x)); auto; [apply Go| | | |].
  - intros x lx [E|I]; [injection E as <- <-; now rewrite Nat.eqb_refl|].
    destruct (Nat.eqb_spec x a) as [->|]; [exfalso; apply Ar; apply in_map_iff; exists (a, lx); auto|].
    apply in_split in I as (pre & r & E). exact (proj1 (proj2 Gr pre x lx r E)).
  - intros x lx I. destruct (Nat.eqb_spec x a) as [->|]; [exfalso; apply Ao; apply in_map_iff; exists (a, lx); auto|].
    apply in_split in I as (pre & r & E). exact (proj1 (proj2 Go pre x lx r E)).
  - intros x lx c b I F Cs. assert (b <> a).
    { apply (shared_not_a k c); auto.
      - exact (G x lx k c I F).
      - destruct I as [E|I]; [injection E as <- <-; apply (B k c F)|exact (ch_good_ok h rest Gr x lx k c I F)]. }
    destruct (Nat.eqb_spec b a); congruence.
  - intros x lx c b I F Cs. assert (b <> a).
    { apply (shared_not_a k c); auto; [exact (proj1 Go x lx k c I F)|exact (ch_good_ok h och Go x lx k c I F)]. }
    destruct (Nat.eqb_spec b a); congruence.
Qed.

(** *** Attributes of objects of big allocations *)
Definition big_view (ch : list (nat * layer)) (d : string * ObjectId) : option ditem :=
  look_big h ch (allocation_of (snd d), fst d) (snd d).
Definition big_dom (d : string * ObjectId) : Prop := valid (snd d) /\ is_small_alloc (snd d) = false.
Lemma bigs_good l : bigs_ok l -> good_ch h ((a, l) :: rest).
Proof.
  intros B x lx k c [E|I] F; [injection E as <- <-; apply (B k c F)|exact (proj1 Gr x lx k c I F)].
Qed.
Lemma big_work_eq stop : big_work stop och = work key_dec big (fun x (_ : layer) r kc => (x, r, kc)) (fun '(_, (k, _)) => k) stop och.
Proof. unfold big_work, work. reflexivity. Qed.

Lemma big_step p l x r k oc stop : bigs_ok l -> In (x, r, (k, oc)) (big_work stop och) ->
  forall l0 c0, bigs_ok l0 ->
  a_find key_dec (big l0) k = Some c0 \/ (a_find key_dec (big l0) k = None /\ exists lp, c0 = mkColl None None None lp /\ (lp = true \/ rest = [])) ->
  match merge_key h p ((a, l0) :: rest) rest och other_frozen x oc r k c0 with
  | None => forall o, look_big h ((a, l0) :: rest) k o = look_big h och k o
  | Some (c, err) =>
      coll_ok h rest k c /\ (err = false -> lookup_parent c = false) /\
      merges differ strict_differ p (real (fst k)) (look_big h ((a, l0) :: rest) k) (look_big h och k)
        (fun o => coll_get h k c (look_big h rest k o) o) err
  end.
Proof.
  intros B I l0 c0 B0 C0. rewrite big_work_eq in I. apply work_in in I; [|now intros]. 
  destruct I as (pre & x' & xl & r' & k' & v & E & Eo & F & N). injection E as <- <- <- <-.
  destruct (proj2 Go pre x xl r Eo) as (Ex & Ck & _). destruct (Ck k oc F) as (Gc & Sm & Sh & Fu).
  assert (A : is_allocation (fst k)) by apply Gc.
  assert (X : good_coll h k c0 /\ shared_ok h c0 /\ (full h rest k c0 \/ a_find key_dec (big l0) k = None)).
  { destruct C0 as [C0|[C0 (lp & -> & _)]].
    - destruct (B0 k c0 C0) as (G0 & _ & S0 & F0). auto.
    - split; [split; [auto|cbn; auto]|]. split; [exact Logic.I|]. auto. }
  destruct X as (G0 & S0 & F0).
  assert (Fzx : frozen xl = other_frozen \/ frozen xl = true).
  { apply (Fz x). rewrite Eo. apply in_app_iff. right. now left. }
  assert (M := merge_key_ok asize asize_ok h p a l0 rest och pre other_frozen x xl oc r k c0 A (bigs_good l0 B0) (proj1 Go) G0 S0 F0 C0 Eo N F Ex Sh Fu Fzx
    (same_views l0 k (bigs_good l0 B0) B0)).
  destruct (merge_key h p ((a, l0) :: rest) rest och other_frozen x oc r k c0) as [[c err]|]; auto.
  destruct M as (M1 & M2 & M3 & M4 & M5). split; auto. split; auto.
Qed.
Lemma big_untouched l stop d : stop_ok l stop ->
  (forall w, In w (big_work stop och) -> fst (snd w) <> (allocation_of (snd d), fst d)) ->
  big_view och d = big_view ((a, l) :: rest) d \/ big_view och d = None.
Proof.
  intros S N. rewrite big_work_eq in N.
  destruct (work_all key_dec big (fun x (_ : layer) r kc => (x, r, kc)) (fun '(_, (k, _)) => k)) with (stop := stop) (och := och) (k := (allocation_of (snd d), fst d))
    as (pre & post & E & F & P).
  - now intros.
  - intros [[x r] [k c]] I. exact (N _ I).
  - unfold big_view. destruct P as [->|(s & sl & r & Es & ->)].
    + right. rewrite E. now rewrite look_big_skip.
    + left. destruct (S pre s sl r E Es) as (Pl & ->). rewrite E, look_big_skip by auto.
      destruct (pristine_nil l Pl) as (_ & Bl & _). cbn [look_big]. rewrite Bl. reflexivity.
Qed.
Definition only_big (l l' : layer) : Prop :=
  frozen l' = frozen l /\ parent l' = parent l /\ small l' = small l /\ lists l' = lists l /\ dicts l' = dicts l.
Lemma merge_big_ok p l : bigs_ok l -> stop_ok l (non_pristine a l) -> (parent l = None -> rest = []) ->
  let '(l', err) := merge_big h p a rest och other_frozen l in
  bigs_ok l' /\ only_big l l' /\
  merges differ strict_differ p big_dom (big_view ((a, l) :: rest)) (big_view och) (big_view ((a, l') :: rest)) err.
Proof.
  intros B S Pn. unfold merge_big.
  assert (X := fold_merge differ strict_differ differ_refl strict_differ_refl
    (fun l '(x, r, (k, oc)) =>
      match merge_key h p ((a, l) :: rest) rest och other_frozen x oc r k (get_or_create_coll l k) with
      | None => (l, false)
      | Some (c, err) => (set_big l k c, err)
      end)
    (fun l' => bigs_ok l' /\ only_big l l') (fun l' => big_view ((a, l') :: rest)) (big_view och)
    (fun w d => fst (snd w) = (allocation_of (snd d), fst d)) p big_dom (big_work (non_pristine a l) och) l).
  destruct (fold_err _ _ l) as [l' err]. destruct X as [[X1 X2] X3]; auto.
  - split; auto. unfold only_big. auto.
  - intros w d. destruct (key_dec (fst (snd w)) (allocation_of (snd d), fst d)); auto.
  - intros l1 [[x r] [k oc]] [B1 O1] I.
    assert (C0 : a_find key_dec (big l1) k = Some (get_or_create_coll l1 k) \/
      (a_find key_dec (big l1) k = None /\ exists lp, get_or_create_coll l1 k = mkColl None None None lp /\ (lp = true \/ rest = []))).
    { unfold get_or_create_coll. destruct (a_find key_dec (big l1) k); auto. right. split; auto. eexists. split; [reflexivity|].
      destruct O1 as (_ & -> & _). destruct (parent l) eqn:P; auto. }
    assert (M := big_step p l x r k oc (non_pristine a l) B I l1 (get_or_create_coll l1 k) B1 C0).
    destruct (merge_key h p ((a, l1) :: rest) rest och other_frozen x oc r k (get_or_create_coll l1 k)) as [[c err1]|].
    + destruct M as (Ck & _ & M). split; [split|].
      * intros k' c' F. cbn in F. rewrite a_find_set in F. destruct (key_dec k k') as [<-|]; [injection F as <-; auto|apply (B1 k' c' F)].
      * unfold only_big in *. exact O1.
      * cbn [fst snd]. split.
        -- intros d _ T. unfold big_view. rewrite set_big_look. destruct (key_dec k (allocation_of (snd d), fst d)); congruence.
        -- destruct err1.
           ++ destruct M as (R & o & Ro & C). split; auto. exists (snd k, o). unfold big_dom, big_view. cbn [fst snd].
              assert (A : allocation_of o = fst k) by apply Ro. rewrite A. destruct k as [al at_]; cbn [fst snd] in *.
              split; [split; [split; [eapply real_valid; eauto|]|auto]|auto].
              assert (Sm : is_small_alloc (allocation_of o) = false) by (rewrite A; apply Ck). exact Sm.
           ++ intros [at_ o] [[V Sm] T]. cbn [fst snd] in *. subst k. cbn [fst] in M.
              destruct (M o) as [M1 M2]; [now apply valid_real|].
              unfold big_view. cbn [fst snd]. rewrite set_big_look. destruct (key_dec _ _); [auto|congruence].
    + split; [split; auto|]. cbn [fst snd]. split; auto. intros d [_ T]. unfold big_view. rewrite <- T, (M (snd d)).
      split; [left; destruct p, (look_big h och k (snd d)); reflexivity|]. intros _. destruct (look_big h och k (snd d)); cbn; auto. apply differ_refl.
  - intros d _ N. apply (big_untouched l (non_pristine a l) d); auto.
Qed.

(** *** Attributes of objects of small allocations *)
Definition small_view (ch : list (nat * layer)) (d : string * ObjectId) : option ditem := look_small ch (fst d) (snd d).
Definition small_dom (d : string * ObjectId) : Prop := valid (snd d) /\ is_small_alloc (snd d) = true.
Definition smalls_ok (l : layer) : Prop := forall attr m, a_find string_dec (small l) attr = Some m -> small_ok asize m.
Definition only_small (l l' : layer) : Prop :=
  frozen l' = frozen l /\ parent l' = parent l /\ big l' = big l /\ lists l' = lists l /\ dicts l' = dicts l.
Definition maps_of (ch : list (nat * layer)) (attr : string) : list smap := map sp_map (small_sources ch attr).
Lemma maps_cons x l r attr : maps_of ((x, l) :: r) attr =
  match a_find string_dec (small l) attr with Some m => m :: maps_of r attr | None => maps_of r attr end.
Proof. unfold maps_of. cbn. now destruct (a_find string_dec (small l) attr). Qed.
Lemma look_small_maps ch attr o : look_small ch attr o = first_in (maps_of ch attr) o.
Proof.
  induction ch as [|[x l] r IH]; auto. rewrite maps_cons. cbn [look_small]. rewrite IH.
  destruct (a_find string_dec (small l) attr); reflexivity.
Qed.
Lemma first_in_app x y o : first_in (x ++ y) o = or_else (first_in x o) (first_in y o).
Proof. induction x as [|m x IH]; auto. unfold first_in in *. cbn [app fold_right]. rewrite IH. now destruct (s_find m o). Qed.
Lemma small_resolve at_ ch attr : (forall x l, In (x, l) ch -> at_ x = Some l) ->
  map Some (maps_of ch attr) = map (fun x => bind (at_ x) (fun l => a_find string_dec (small l) attr)) (small_ids ch attr).
Proof.
  intros A. induction ch as [|[x l] r IH]; auto. rewrite maps_cons. cbn [small_ids].
  assert (IH' := IH (fun y ly I => A y ly (or_intror I))). destruct (a_find string_dec (small l) attr) eqn:F; auto.
  cbn [map]. rewrite IH', (A x l (or_introl eq_refl)). cbn [bind]. now rewrite F.
Qed.
Lemma map_some_inj {A} (x y : list A) : map Some x = map Some y -> x = y.
Proof. revert y. induction x as [|a0 x IH]; intros [|b y]; cbn; try easy. intros E. injection E as -> E. now rewrite (IH y E). Qed.
Lemma small_ids_length ch attr : length (small_ids ch attr) = length (maps_of ch attr).
Proof.
  induction ch as [|[x l] r IH]; auto. rewrite maps_cons. cbn [small_ids]. destruct (a_find string_dec (small l) attr); cbn; auto.
Qed.
Definition here (l : layer) (x : nat) : option layer := if x =? a then Some l else nth_error h x.
Lemma here_t l x lx : In (x, lx) ((a, l) :: rest) -> here l x = Some lx.
Proof.
  unfold here. intros [E|I]; [injection E as <- <-; now rewrite Nat.eqb_refl|].
  destruct (Nat.eqb_spec x a) as [->|]; [exfalso; apply Ar; apply in_map_iff; exists (a, lx); auto|].
  apply in_split in I as (pre & r & E). exact (proj1 (proj2 Gr pre x lx r E)).
Qed.
Lemma here_o l x lx : In (x, lx) och -> here l x = Some lx.
Proof.
  unfold here. intros I. destruct (Nat.eqb_spec x a) as [->|]; [exfalso; apply Ao; apply in_map_iff; exists (a, lx); auto|].
  apply in_split in I as (pre & r & E). exact (proj1 (proj2 Go pre x lx r E)).
Qed.
Lemma suffix_maps l attr : is_suffix (small_ids ((a, l) :: rest) attr) (small_ids och attr) = true ->
  let n := length (small_ids och attr) - length (small_ids ((a, l) :: rest) attr) in
  maps_of och attr = firstn n (maps_of och attr) ++ maps_of ((a, l) :: rest) attr.
Proof.
  intros S n. unfold is_suffix in S. apply andb_true_iff in S as [S1 S2]. destruct (list_eq_dec Nat.eq_dec _ _) as [E|]; [|easy].
  rewrite <- (firstn_skipn n (maps_of och attr)) at 1. f_equal. apply map_some_inj.
  rewrite (small_resolve (here l) ((a, l) :: rest) attr) by apply here_t.
  rewrite E. rewrite <- skipn_map. rewrite (small_resolve (here l) och attr) by apply here_o. now rewrite skipn_map.
Qed.
Lemma same_small l attr : small_ids ((a, l) :: rest) attr = small_ids och attr -> forall o, look_small ((a, l) :: rest) attr o = look_small och attr o.
Proof.
  intros E o. rewrite !look_small_maps. f_equal. apply map_some_inj. rewrite (small_resolve (here l) ((a, l) :: rest) attr) by apply here_t.
  rewrite (small_resolve (here l) och attr) by apply here_o. now rewrite E.
Qed.
Lemma small_ids_in ch attr x : In x (small_ids ch attr) -> In x (map fst ch).
Proof.
  induction ch as [|[y l] r IH]; cbn; auto. destruct (a_find string_dec (small l) attr); cbn; intuition.
Qed.
Lemma suffix_not_own l attr : is_suffix (small_ids ((a, l) :: rest) attr) (small_ids och attr) = true -> a_find string_dec (small l) attr = None.
Proof.
  intros S. unfold is_suffix in S. apply andb_true_iff in S as [S1 S2]. destruct (list_eq_dec Nat.eq_dec _ _) as [E|]; [|easy].
  destruct (a_find string_dec (small l) attr) eqn:F; auto. exfalso.
  apply Ao. apply (small_ids_in och attr). rewrite <- (firstn_skipn (length (small_ids och attr) - length (small_ids ((a, l) :: rest) attr)) (small_ids och attr)).
  apply in_app_iff. right. rewrite <- E. cbn [small_ids]. rewrite F. now left.
Qed.
(** what is added is the other's data up to what this has already *)
Definition added (strip : bool) (l : layer) (attr : string) : list smap :=
  let tids := small_ids ((a, l) :: rest) attr in
  let oids := small_ids och attr in
  if strip then firstn (length oids - length tids) (maps_of och attr) else maps_of och attr.
Lemma added_look strip l attr o :
  strip = true -> is_suffix (small_ids ((a, l) :: rest) attr) (small_ids och attr) = true ->
  look_small och attr o = or_else (first_in (added strip l attr) o) (look_small ((a, l) :: rest) attr o).
Proof.
  intros -> S. rewrite !look_small_maps. unfold added. rewrite <- first_in_app. f_equal. exact (suffix_maps l attr S).
Qed.
Lemma firstn_In {A} n (l : list A) x : In x (firstn n l) -> In x l.
Proof. intros I. rewrite <- (firstn_skipn n l). apply in_app_iff. now left. Qed.
Lemma added_ok strip l attr m : In m (added strip l attr) -> small_ok asize m.
Proof.
  intros I. assert (In m (maps_of och attr)) as J by (unfold added in I; destruct strip; auto; eapply firstn_In; eauto). clear I.
  assert (X : forall pre ch, och = pre ++ ch -> In m (maps_of ch attr) -> small_ok asize m).
  { intros pre ch. revert pre. induction ch as [|[x lx] r IH]; intros pre E K; [easy|]. rewrite maps_cons in K.
    destruct (a_find string_dec (small lx) attr) as [m'|] eqn:F.
    - destruct K as [<-|K]; [|apply (IH (pre ++ [(x, lx)])); auto; now rewrite <- app_assoc].
      destruct (proj2 Go pre x lx r E) as (_ & _ & S & _). eauto.
    - apply (IH (pre ++ [(x, lx)])); auto. now rewrite <- app_assoc. }
  exact (X [] och eq_refl J).
Qed.
Lemma entries_ok strip l attr :
  let es := process_sparse [] (added strip l attr) in
  NoDup (map fst es) /\ (forall o v, In (o, v) es -> valid o /\ is_small_alloc o = true) /\
  forall o, s_find es o = first_in (added strip l attr) o.
Proof.
  assert (F : Forall (fun m => NoDup (map fst m)) (added strip l attr)).
  { apply Forall_forall. intros m I. exact (proj1 (added_ok strip l attr m I)). }
  destruct (process_sparse_ok _ F []) as (N & O & V). cbn zeta. split; auto. split; [|exact V].
  intros o v I. destruct (O o v I) as (_ & m & I1 & I2). exact (proj2 (added_ok strip l attr m I1) o v I2).
Qed.
Lemma small_write l attr o item : smalls_ok l -> valid o -> is_small_alloc o = true ->
  let l' := set_small l attr (sp_map (sparse_set (mkSparse None (small_source l attr)) o item)) in
  smalls_ok l' /\ only_small l l' /\
  forall r attr' o', look_small ((a, l') :: r) attr' o' = if string_dec attr attr' then if same_oid o o' then Some item else look_small ((a, l) :: r) attr' o'
    else look_small ((a, l) :: r) attr' o'.
Proof.
  intros S V Sm. cbn zeta. unfold sparse_set, belongs. cbn [sp_alloc]. rewrite Sm. cbn [sp_map].
  set (l' := set_small l attr (s_set (small_source l attr) o item)). split; [|split].
  - intros at_ m F. unfold l' in F. cbn in F. rewrite a_find_set in F. destruct (string_dec attr at_) as [<-|]; [|eapply S; eauto].
    injection F as <-. apply small_set_ok; auto. unfold small_source. destruct (a_find string_dec (small l) attr) eqn:F; [eapply S; eauto|].
    split; [constructor|easy].
  - unfold only_small, l'. auto.
  - intros r attr' o'. unfold l'. rewrite set_small_look. destruct (string_dec attr attr') as [<-|]; auto.
    rewrite s_find_set, small_source_look. destruct (same_oid o o') eqn:E; auto.
Qed.
Lemma only_small_trans l1 l2 l3 : only_small l1 l2 -> only_small l2 l3 -> only_small l1 l3.
Proof. unfold only_small. intuition congruence. Qed.

Lemma merge_attr_ok p l attr : smalls_ok l ->
  let '(l', err) := merge_attr p a rest och l attr in
  smalls_ok l' /\ only_small l l' /\
  (forall d, fst d <> attr -> small_view ((a, l') :: rest) d = small_view ((a, l) :: rest) d) /\
  merges differ strict_differ p (fun d => small_dom d /\ fst d = attr) (small_view ((a, l) :: rest)) (small_view och) (small_view ((a, l') :: rest)) err.
Proof.
  intros S. unfold merge_attr. fold (maps_of och attr).
  set (tids := small_ids ((a, l) :: rest) attr). set (oids := small_ids och attr).
  destruct (list_eq_dec Nat.eq_dec tids oids) as [Ei|Ni].
  { split; auto. split; [unfold only_small; auto|]. split; auto. apply merges_same; [apply differ_refl|].
    intros [at_ o] [_ E]. cbn in E. subst at_. left. symmetry. now apply same_small. }
  set (strip := is_overwrite p && is_suffix tids oids).
  set (os := if strip then firstn (length oids - length tids) (maps_of och attr) else maps_of och attr).
  change os with (added strip l attr).
  assert (Oth : forall l' err, (forall d, fst d <> attr -> small_view ((a, l') :: rest) d = small_view ((a, l) :: rest) d) ->
    merges differ strict_differ p (fun d => small_dom d /\ fst d = attr) (small_view ((a, l) :: rest))
      (fun d => first_in (added strip l attr) (snd d)) (small_view ((a, l') :: rest)) err ->
    merges differ strict_differ p (fun d => small_dom d /\ fst d = attr) (small_view ((a, l) :: rest)) (small_view och) (small_view ((a, l') :: rest)) err).
  { intros l' err _. destruct strip eqn:St.
    - apply andb_true_iff in St as [St1 St2]. assert (Lk := fun o => added_look true l attr o eq_refl St2).
      destruct p; try easy. unfold merges. destruct err; [now intros [E _]|]. intros M [at_ o] [Dd E]. cbn in E. subst at_.
      destruct (M (attr, o) (conj Dd eq_refl)) as [[O|[E _]] _]; [|easy]. split; [left|easy]. rewrite O. unfold small_view. cbn [fst snd].
      rewrite Lk. destruct (look_small ((a, l) :: rest) attr o), (first_in (added true l attr) o); reflexivity.
    - apply merges_ext; auto. intros [at_ o] [_ E]. cbn in E. subst. unfold small_view. cbn. now rewrite look_small_maps. }
  set (f := fun (l0 : layer) '(o, item) => _).
  assert (Fold : let '(l', err) := fold_err f (process_sparse [] (added strip l attr)) l in
    smalls_ok l' /\ only_small l l' /\
    (forall d, fst d <> attr -> small_view ((a, l') :: rest) d = small_view ((a, l) :: rest) d) /\
    merges differ strict_differ p (fun d => small_dom d /\ fst d = attr) (small_view ((a, l) :: rest)) (small_view och) (small_view ((a, l') :: rest)) err).
  { destruct (entries_ok strip l attr) as (Nd & Ve & Vs). set (es := process_sparse [] (added strip l attr)) in *.
    set (g := fun (l0 : layer) '(o, item) =>
          match (if is_overwrite p then None else or_else (s_find (small_source l0 attr) o) (look_small rest attr o)) with
          | Some v => (l0, is_raise p && differ v item)
          | None => (set_small l0 attr (sp_map (sparse_set (mkSparse None (small_source l0 attr)) o item)), false)
          end).
    assert (Fg : fold_err f es l = fold_err g es l).
    { clear -Nd Ve.
      assert (X : forall es1 l0, NoDup (map fst es1) -> (forall o v, In (o, v) es1 -> is_small_alloc o = true) ->
        (a_find string_dec (small l) attr = None -> forall o v, In (o, v) es1 -> s_find (small_source l0 attr) o = None) ->
        fold_err f es1 l0 = fold_err g es1 l0).
      { induction es1 as [|[o item] es0 IH]; intros l0 Nd0 Ve0 Q; auto. cbn in Nd0. apply NoDup_cons_iff in Nd0 as [Nd1 Nd2].
        rewrite !fold_err_cons. assert (E : f l0 (o, item) = g l0 (o, item)).
        { unfold f, g. destruct (a_find string_dec (small l) attr) eqn:F; auto.
          rewrite (Q eq_refl o item (or_introl eq_refl)). reflexivity. }
        rewrite E. destruct (g l0 (o, item)) as [l1 e] eqn:G. destruct e; auto. apply IH; auto; [intros; eapply Ve0; right; eauto|].
        intros Fn o' v' I. assert (Q' := Q Fn o' v' (or_intror I)). unfold g in G. destruct (if is_overwrite p then None else _); apply pair_equal_spec in G as [<- _]; auto.
        unfold small_source at 1. cbn. rewrite a_find_set. destruct (string_dec attr attr); [|congruence].
        unfold sparse_set, belongs. cbn [sp_alloc]. rewrite (Ve0 o item (or_introl eq_refl)). cbn [sp_map]. rewrite s_find_set.
        destruct (same_oid o o') eqn:So; auto. apply same_oid_spec in So. subst. exfalso. apply Nd1. apply in_map_iff. exists (o', v'). auto. }
      apply X; auto.
      - intros o v I. exact (proj2 (Ve o v I)).
      - intros Fn o v I. unfold small_source. rewrite Fn. reflexivity. }
    rewrite Fg.
    assert (X := fold_merge differ strict_differ differ_refl strict_differ_refl g
      (fun l' => smalls_ok l' /\ only_small l l' /\ forall d, fst d <> attr -> small_view ((a, l') :: rest) d = small_view ((a, l) :: rest) d)
      (fun l' => small_view ((a, l') :: rest)) (fun d => first_in (added strip l attr) (snd d))
      (fun w d => fst w = snd d) p (fun d => small_dom d /\ fst d = attr) es l).
    destruct (fold_err g es l) as [l' err]. destruct X as [(X1 & X2 & X3) X4].
    - split; auto. split; [unfold only_small; auto|]. auto.
    - intros w d. destruct (oid_eq_dec (fst w) (snd d)); auto.
    - intros l1 [o item] (S1 & O1 & K1) I. destruct (Ve o item I) as [Vo So].
      assert (Fi : first_in (added strip l attr) o = Some item) by (rewrite <- Vs; now apply s_find_in).
      destruct (small_write l1 attr o item S1 Vo So) as (S2 & O2 & V2).
      assert (T : or_else (s_find (small_source l1 attr) o) (look_small rest attr o) = small_view ((a, l1) :: rest) (attr, o)).
      { unfold small_view. cbn [fst snd]. symmetry. apply small_source_look. }
      assert (Wr : small_view ((a, l1) :: rest) (attr, o) = None \/ p = Overwrite ->
         let l2 := set_small l1 attr (sp_map (sparse_set (mkSparse None (small_source l1 attr)) o item)) in
         (smalls_ok l2 /\ only_small l l2 /\ forall d, fst d <> attr -> small_view ((a, l2) :: rest) d = small_view ((a, l) :: rest) d) /\
         (forall d, small_dom d /\ fst d = attr -> fst (o, item) <> snd d -> small_view ((a, l2) :: rest) d = small_view ((a, l1) :: rest) d) /\
         merges differ strict_differ p (fun d => (small_dom d /\ fst d = attr) /\ fst (o, item) = snd d) (small_view ((a, l1) :: rest))
           (fun d => first_in (added strip l attr) (snd d)) (small_view ((a, l2) :: rest)) false).
      { intros C l2. split; [|split].
        - split; [exact S2|]. split; [eapply only_small_trans; eauto|]. intros d Nd1. rewrite <- K1 by auto. unfold small_view, l2. rewrite V2.
          destruct (string_dec attr (fst d)); congruence.
        - intros d [_ Ed] Nd1. unfold small_view, l2. rewrite V2. destruct (string_dec attr (fst d)); auto.
          destruct (same_oid o (snd d)) eqn:E; auto. apply same_oid_spec in E. now cbn in Nd1.
        - intros [at_ o'] [[_ E1] E2]. cbn in E1, E2. subst at_ o'. cbn [snd]. rewrite Fi. unfold small_view at 2. cbn [fst snd]. unfold l2. rewrite V2.
          destruct (string_dec attr attr); [|congruence]. rewrite same_oid_refl. destruct C as [-> | C]; [split; [left; now destruct p|easy]|].
          subst p. split; [left; now destruct (small_view ((a, l1) :: rest) (attr, o))|easy]. }
      unfold g. destruct (is_overwrite p) eqn:Ov.
      + apply Wr. right. now destruct p.
      + rewrite T. destruct (small_view ((a, l1) :: rest) (attr, o)) as [v|] eqn:Sv; [|apply Wr; auto].
        split; [auto|]. split; [auto|]. destruct (is_raise p && differ v item) eqn:Er.
        * apply andb_true_iff in Er as [Er1 Er2]. split; [now destruct p|]. exists (attr, o). split; [split; [split; [split; auto|auto]|auto]|].
          cbn [snd]. rewrite Fi, Sv. cbn. now apply differ_strict.
        * intros [at_ o'] [[_ E1] E2]. cbn in E1, E2. subst at_ o'. cbn [snd]. rewrite Fi, Sv. split; [left; now destruct p|].
          intros ->. exact Er.
    - intros [at_ o] [_ E] N. cbn in E. subst at_. right. cbn [snd]. rewrite <- Vs. apply s_find_none. intros I. apply in_map_iff in I as ([o' v] & E & I).
      exact (N _ I E).
    - auto. }
  destruct (if strip then [] else tids) as [|t ts] eqn:Et; [destruct (added strip l attr) as [|m [|m2 ms]] eqn:Em|]; try exact Fold.
  clear Fold.
  (* one source, to a place without data *)
  assert (Own : a_find string_dec (small l) attr = None /\ (strip = false -> forall o, look_small ((a, l) :: rest) attr o = None)).
  { destruct strip eqn:St.
    - apply andb_true_iff in St as [_ St2]. split; [now apply suffix_not_own|easy].
    - split.
      + unfold tids in Et. cbn [small_ids] in Et. now destruct (a_find string_dec (small l) attr).
      + intros _ o. rewrite look_small_maps. assert (L := small_ids_length ((a, l) :: rest) attr). fold tids in L. rewrite Et in L.
        destruct (maps_of ((a, l) :: rest) attr); [reflexivity|easy]. }
  destruct Own as [Own Emp]. rewrite Own.
  assert (Vw : forall d, fst d <> attr -> small_view ((a, set_small l attr m) :: rest) d = small_view ((a, l) :: rest) d).
  { intros d Nd. unfold small_view. rewrite set_small_look. destruct (string_dec attr (fst d)); congruence. }
  split; [|split; [unfold only_small; auto|split; [exact Vw|]]].
  - intros at_ m' F. cbn in F. rewrite a_find_set in F. destruct (string_dec attr at_); [|eapply S; eauto]. injection F as <-.
    apply (added_ok strip l attr). rewrite Em. now left.
  - apply Oth; auto. intros [at_ o] [_ E]. cbn in E. subst at_. unfold small_view. cbn [fst snd]. rewrite set_small_look.
    destruct (string_dec attr attr); [|congruence]. unfold first_in. cbn [fold_right].
    assert (Lr : look_small ((a, l) :: rest) attr o = look_small rest attr o) by (cbn; now rewrite Own). rewrite Lr.
    destruct strip eqn:St.
    + apply andb_true_iff in St as [St1 _]. destruct p; try easy. split; [left|easy]. cbn. now destruct (s_find m o), (look_small rest attr o).
    + rewrite <- Lr, (Emp eq_refl o). split; [left; now destruct p, (s_find m o)|easy].
Qed.

Lemma small_ids_skip pre r attr : (forall y ly, In (y, ly) pre -> a_find string_dec (small ly) attr = None) -> small_ids (pre ++ r) attr = small_ids r attr.
Proof.
  induction pre as [|[y ly] pre IH]; intros H; cbn; auto. rewrite (H y ly) by now left. apply IH. intros. eapply H. right. eauto.
Qed.
Lemma look_small_skip pre r attr o : (forall y ly, In (y, ly) pre -> a_find string_dec (small ly) attr = None) -> look_small (pre ++ r) attr o = look_small r attr o.
Proof.
  induction pre as [|[y ly] pre IH]; intros H; cbn; auto. rewrite (H y ly) by now left. apply IH. intros. eapply H. right. eauto.
Qed.
Lemma small_work_all stop attr : ~ In attr (small_work stop och) ->
  exists pre post, och = pre ++ post /\ (forall y ly, In (y, ly) pre -> a_find string_dec (small ly) attr = None) /\
  (post = [] \/ exists s l r, stop = Some s /\ post = (s, l) :: r).
Proof.
  intros N. destruct (new_layers_rest stop och) as (post & E & P). exists (map fst (new_layers stop och)), post. split; auto. split; auto.
  unfold small_work in N.
  assert (X : forall done_ todo, new_layers stop och = done_ ++ todo ->
    (forall y ly, In (y, ly) (map fst done_) -> a_find string_dec (small ly) attr = None) ->
    forall y ly, In (y, ly) (map fst todo) -> a_find string_dec (small ly) attr = None).
  { intros done_ todo. revert done_. induction todo as [|[[x l] r] todo IH]; intros done_ En D y ly I; [easy|].
    assert (Nx : a_find string_dec (small l) attr = None).
    { destruct (a_find string_dec (small l) attr) as [m|] eqn:F; auto. exfalso. apply N. apply in_flat_map. exists (x, l, r).
      split; [rewrite En; apply in_app_iff; right; now left|]. apply in_flat_map. exists (attr, m). split; [eapply a_find_in; eauto|].
      destruct (new_layers_at stop och _ _ _ _ _ En) as (pre & Eo & Ep). rewrite Eo, small_ids_skip.
      - cbn [small_ids]. rewrite F, Nat.eqb_refl. now left.
      - intros y' ly' I'. apply (D y' ly'). now rewrite Ep. }
    destruct I as [I|I]; [injection I as <- <-; auto|].
    apply (IH (done_ ++ [(x, l, r)])) with (y := y); auto; [now rewrite <- app_assoc|].
    intros y' ly' I'. rewrite map_app in I'. apply in_app_iff in I' as [I'|[I'|[]]]; [eauto|]. injection I' as <- <-. auto. }
  exact (X [] (new_layers stop och) eq_refl (fun y ly I => match I with end)).
Qed.
Lemma small_untouched l stop d : stop_ok l stop -> ~ In (fst d) (small_work stop och) ->
  small_view och d = small_view ((a, l) :: rest) d \/ small_view och d = None.
Proof.
  intros S N. destruct (small_work_all stop (fst d) N) as (pre & post & E & F & P). unfold small_view. destruct P as [->|(s & sl & r & Es & ->)].
  - right. rewrite E. now rewrite look_small_skip.
  - left. destruct (S pre s sl r E Es) as (Pl & ->). rewrite E, look_small_skip by auto.
    destruct (pristine_nil l Pl) as (Sl & _). cbn [look_small]. rewrite Sl. reflexivity.
Qed.
Lemma merge_small_ok p l stop : smalls_ok l -> stop_ok l stop ->
  let '(l', err) := merge_small p a rest och stop l in
  smalls_ok l' /\ only_small l l' /\
  merges differ strict_differ p small_dom (small_view ((a, l) :: rest)) (small_view och) (small_view ((a, l') :: rest)) err.
Proof.
  intros S St. unfold merge_small.
  assert (X := fold_merge differ strict_differ differ_refl strict_differ_refl (merge_attr p a rest och)
    (fun l' => smalls_ok l' /\ only_small l l') (fun l' => small_view ((a, l') :: rest)) (small_view och)
    (fun w d => fst d = w) p small_dom (small_work stop och) l).
  destruct (fold_err _ _ l) as [l' err]. destruct X as [[X1 X2] X3]; auto.
  - split; auto. unfold only_small. auto.
  - intros w d. destruct (string_dec (fst d) w); auto.
  - intros l1 attr [S1 O1] I. assert (M := merge_attr_ok p l1 attr S1). destruct (merge_attr p a rest och l1 attr) as [l2 e].
    destruct M as (M1 & M2 & M3 & M4). split; [split; [auto|eapply only_small_trans; eauto]|]. split; auto.
  - intros d _ N. apply (small_untouched l stop); auto. intros I. exact (N _ I eq_refl).
Qed.

(** *** Lists *)
Hypothesis Sfx : forall pre x l r pre' l' r', och = pre ++ (x, l) :: r -> rest = pre' ++ (x, l') :: r' -> l' = l /\ r' = r.

Definition list_view (ch : list (nat * layer)) (o : ObjectId) : option (list ditem) := list_in ch o.
Definition vecs_ok (l : layer) : Prop :=
  forall alloc v, a_find oid_eq_dec (lists l) alloc = Some v -> is_allocation alloc /\ lv_size v = capacity alloc.
Lemma only_lists_trans l1 l2 l3 : only_lists l1 l2 -> only_lists l2 l3 -> only_lists l1 l3.
Proof. unfold only_lists. intuition congruence. Qed.
Lemma lists_differ_refl x : lists_differ x x = false.
Proof.
  unfold lists_differ. rewrite Nat.eqb_refl. cbn. induction x as [|y x IH]; cbn; auto. rewrite differ_refl. exact IH.
Qed.
Lemma look_list_skip pre r alloc i : (forall y ly, In (y, ly) pre -> a_find oid_eq_dec (lists ly) alloc = None) ->
  look_list (pre ++ r) alloc i = look_list r alloc i.
Proof.
  induction pre as [|[y ly] pre IH]; intros H; cbn; auto. rewrite (H y ly) by now left. apply IH. intros. eapply H. right. eauto.
Qed.
Lemma lists_id_at ch alloc x : lists_id ch alloc = Some x ->
  exists pre l r, ch = pre ++ (x, l) :: r /\ forall y ly, In (y, ly) pre -> a_find oid_eq_dec (lists ly) alloc = None.
Proof.
  induction ch as [|[y l] r IH]; cbn; [easy|]. destruct (a_find oid_eq_dec (lists l) alloc) eqn:F.
  - intros E. injection E as <-. exists [], l, r. split; auto. easy.
  - intros E. destruct (IH E) as (pre & l' & r' & -> & N). exists ((y, l) :: pre), l', r'. split; auto.
    intros z lz [Z|Z]; [injection Z as <- <-; auto|eauto].
Qed.
Lemma rest_lists_size alloc v : has_lists rest alloc = Some v -> lv_size v = capacity alloc.
Proof.
  assert (X : forall pre ch, rest = pre ++ ch -> has_lists ch alloc = Some v -> lv_size v = capacity alloc).
  { intros pre ch. revert pre. induction ch as [|[x l] r IH]; intros pre E; cbn; [easy|].
    destruct (a_find oid_eq_dec (lists l) alloc) as [w|] eqn:F.
    - intros K. injection K as ->. destruct (proj2 Gr pre x l r E) as (_ & _ & _ & Li & _). apply (Li alloc v F).
    - apply (IH (pre ++ [(x, l)])). now rewrite <- app_assoc. }
  exact (X [] rest eq_refl).
Qed.
Lemma new_vec_size l alloc n : vecs_ok l -> lv_size (get_or_create_lists rest l alloc n) = capacity alloc.
Proof.
  intros V. unfold get_or_create_lists. destruct (a_find oid_eq_dec (lists l) alloc) as [v|] eqn:F; [apply (V alloc v F)|].
  destruct (has_lists rest alloc) as [p|] eqn:P; auto. cbn [lv_size]. now apply rest_lists_size.
Qed.
Lemma lists_work_eq stop : lists_work stop och = work oid_eq_dec lists (fun x (_ : layer) r kc => (x, r, kc)) (fun '(_, (k, _)) => k) stop och.
Proof. unfold lists_work, work. reflexivity. Qed.

(** one vector *)
Lemma merge_vec_ok p alloc up other v0 :
  let '(v, err) := fold_err (merge_list p up other) (below (capacity alloc)) v0 in
  lv_size v = lv_size v0 /\
  merges lists_differ lists_differ p (fun i => (i < capacity alloc)%N) (fun i => lvec_get v0 i (up i)) other (fun i => lvec_get v i (up i)) err.
Proof.
  assert (X := fold_merge lists_differ lists_differ lists_differ_refl lists_differ_refl (merge_list p up other)
    (fun v => lv_size v = lv_size v0) (fun v i => lvec_get v i (up i)) other (fun i j => j = i) p
    (fun i => (i < capacity alloc)%N) (below (capacity alloc)) v0).
  destruct (fold_err _ _ v0) as [v err]. apply X; auto.
  - intros w d. destruct (N.eq_dec d w); auto.
  - clear X. intros v1 i E Ii. unfold merge_list. destruct (other i) as [ol|] eqn:Oi.
    + assert (Wr : forall f, let v2 := lvec_edit v1 i (up i) f in
         lv_size v2 = lv_size v0 /\ (forall d, (d < capacity alloc)%N -> d <> i -> lvec_get v2 d (up d) = lvec_get v1 d (up d)) /\
         lvec_get v2 i (up i) = Some (f (items (lvec_get v1 i (up i))))).
      { intros f v2. split; [exact E|]. split.
        - intros d _ N. unfold v2. rewrite lvec_edit_get. destruct (N.eqb_spec d i); congruence.
        - unfold v2. now rewrite lvec_edit_get, N.eqb_refl. }
      destruct (lvec_get v1 i (up i)) as [tl|] eqn:T.
      * destruct (is_overwrite p) eqn:Ov.
        -- destruct (Wr (fun _ => ol)) as (W1 & W2 & W3). split; auto. split; auto. intros j [_ ->]. rewrite W3, T, Oi.
           destruct p; try easy. split; [now left|easy].
        -- destruct (Wr (fun x => x)) as (W1 & W2 & W3). split; auto. split; auto. cbn [items] in W3.
           destruct (is_raise p && lists_differ tl ol) eqn:R.
           ++ apply andb_true_iff in R as [R1 R2]. split; [now destruct p|]. exists i. rewrite T, Oi.
              destruct (N.lt_ge_cases i (capacity alloc)) as [L|G]; [auto|]. exfalso.
              (* [i] is one of the indices *) revert G. apply N.lt_nge. now apply in_below.
           ++ intros j [_ ->]. rewrite W3, T, Oi. split; [left; now destruct p|]. intros ->. exact R.
      * destruct (Wr (fun _ => ol)) as (W1 & W2 & W3). split; auto. split; auto. intros j [_ ->]. rewrite W3, T, Oi.
        split; [left; now destruct p|easy].
    + split; auto. split; auto. intros j [_ ->]. rewrite Oi. split; [now left|]. intros _. now destruct (lvec_get v1 i (up i)).
  - intros d Ld N. elim (N d); auto. now apply in_below.
Qed.

Lemma merge_lists_ok p l stop : vecs_ok l -> stop_ok l stop ->
  let '(l', err) := merge_lists p a rest och stop l in
  vecs_ok l' /\ only_lists l l' /\
  merges lists_differ lists_differ p wf (list_view ((a, l) :: rest)) (list_view och) (list_view ((a, l') :: rest)) err.
Proof.
  intros V St. unfold merge_lists.
  set (f := fun (l0 : layer) '(x, r, (alloc, ov)) => _).
  assert (X := fold_merge lists_differ lists_differ lists_differ_refl lists_differ_refl f
    (fun l' => vecs_ok l' /\ only_lists l l') (fun l' => list_view ((a, l') :: rest)) (list_view och)
    (fun w d => fst (snd w) = allocation_of d) p wf (lists_work stop och) l).
  destruct (fold_err f _ l) as [l' err]. destruct X as [[X1 X2] X3]; auto.
  - split; auto. unfold only_lists. auto.
  - intros w d. destruct (oid_eq_dec (fst (snd w)) (allocation_of d)); auto.
  - intros l1 [[x r] [alloc ov]] [V1 O1] I. cbn [fst snd].
    rewrite lists_work_eq in I. apply work_in in I; [|now intros].
    destruct I as (pre & x' & xl & r' & k' & v & E & Eo & F & N). injection E as <- <- <- <-.
    destruct (proj2 Go pre x xl r Eo) as (_ & _ & _ & Li & _). destruct (Li alloc ov F) as [A Sz].
    assert (Vo : forall i, look_list och alloc i = lvec_get ov i (look_list r alloc i)).
    { intros i. rewrite Eo, look_list_skip by auto. cbn. now rewrite F. }
    unfold f. destruct (same_addr (lists_id ((a, l1) :: rest) alloc) x) eqn:Sa.
    + split; auto. split; auto. apply merges_same; [apply lists_differ_refl|]. intros o [_ T]. left.
      unfold list_view, list_in. rewrite <- T. unfold same_addr in Sa. destruct (lists_id ((a, l1) :: rest) alloc) as [y|] eqn:Il; [|easy].
      apply Nat.eqb_eq in Sa. subst y. destruct (lists_id_at _ _ _ Il) as (pre' & l2 & r2 & Et & Nt).
      destruct pre' as [|z pre']; cbn in Et; injection Et as E1 E2.
      * exfalso. apply Ao. rewrite Eo, map_app. apply in_app_iff. right. cbn. left. congruence.
      * subst z. destruct (Sfx pre x xl r pre' l2 r2 Eo E2) as [-> ->].
        rewrite Vo. rewrite E2. change ((a, l1) :: pre' ++ (x, xl) :: r) with (((a, l1) :: pre') ++ (x, xl) :: r).
        rewrite look_list_skip by auto. cbn. now rewrite F.
    + set (v0 := get_or_create_lists rest l1 alloc 1). rewrite Sz.
      assert (M := merge_vec_ok p alloc (look_list rest alloc) (fun i => lvec_get ov i (look_list r alloc i)) v0).
      destruct (fold_err _ _ v0) as [v err1]. destruct M as [Sv M].
      assert (Sz0 : lv_size v0 = capacity alloc) by now apply new_vec_size.
      split; [split|split].
      * intros al w Fw. cbn in Fw. rewrite a_find_set in Fw. destruct (oid_eq_dec alloc al) as [<-|]; [|apply (V1 al w Fw)].
        injection Fw as <-. split; auto. congruence.
      * eapply only_lists_trans; [exact O1|apply set_lists_only].
      * intros o _ T. unfold list_view, list_in. rewrite set_lists_look. destruct (oid_eq_dec alloc (allocation_of o)); congruence.
      * assert (Vt : forall i, lvec_get v0 i (look_list rest alloc i) = look_list ((a, l1) :: rest) alloc i).
        { intros i. apply get_or_create_lists_look. }
        destruct err1.
        -- destruct M as (R & i & Li1 & C). split; auto. exists (object_by_offset alloc i).
           assert (W := object_by_offset_wf alloc i A Li1). assert (Of := object_by_offset_offset alloc i A Li1).
           assert (Oa := object_by_offset_alloc alloc i A Li1). split; [split; auto|].
           unfold list_view, list_in. rewrite Oa, Of, Vo, <- Vt. exact C.
        -- intros o [W T]. destruct (M (offset o)) as [M1 M2].
           { rewrite T. change (capacity (allocation_of o)) with (capacity o). apply offset_lt. }
           rewrite Vt in M1, M2. rewrite <- Vo in M1, M2. unfold list_view, list_in. rewrite set_lists_look. rewrite <- T.
           destruct (oid_eq_dec alloc alloc); [auto|congruence].
  - intros o _ N. unfold list_view, list_in.
    destruct (work_all oid_eq_dec lists (fun x (_ : layer) r kc => (x, r, kc)) (fun '(_, (k, _)) => k)) with (stop := stop) (och := och) (k := allocation_of o)
      as (pre & post & E & F & P).
    + now intros.
    + intros [[x r] [k c]] I. rewrite <- lists_work_eq in I. exact (N _ I).
    + destruct P as [->|(s & sl & r & Es & ->)].
      * right. rewrite E. now rewrite look_list_skip.
      * left. destruct (St pre s sl r E Es) as (Pl & ->). rewrite E, look_list_skip by auto.
        destruct (pristine_nil l Pl) as (_ & _ & Ll & _). cbn [look_list]. rewrite Ll. reflexivity.
Qed.

(** *** Dicts *)
Variable iter : dmap -> dmap.
Hypothesis any_order : forall m, Permutation (iter m) m.

Definition dict_view (ch : list (nat * layer)) (d : ObjectId * value) : option ditem := dict_in ch (fst d) (snd d).
Definition dvecs_ok (l : layer) : Prop :=
  forall alloc v, a_find oid_eq_dec (dicts l) alloc = Some v -> is_allocation alloc /\ forall i, good_keys (od_data (v i)).
Lemma only_dicts_trans l1 l2 l3 : only_dicts l1 l2 -> only_dicts l2 l3 -> only_dicts l1 l3.
Proof. unfold only_dicts. intuition congruence. Qed.
Lemma ch_dicts_ok ch : ch_good h ch -> dicts_ok ch.
Proof.
  intros G x l alloc v i I F. apply in_split in I as (pre & r & E).
  destruct (proj2 G pre x l r E) as (_ & _ & _ & _ & Di). exact (proj2 (Di alloc v F) i).
Qed.
Lemma top_dicts_ok l : dvecs_ok l -> dicts_ok ((a, l) :: rest).
Proof.
  intros V x lx alloc v i [E|I] F; [|exact (ch_dicts_ok rest Gr x lx alloc v i I F)].
  injection E as <- <-. exact (proj2 (V alloc v F) i).
Qed.
Lemma look_dict_skip pre r alloc i : (forall y ly, In (y, ly) pre -> a_find oid_eq_dec (dicts ly) alloc = None) ->
  look_dict (pre ++ r) alloc i = look_dict r alloc i.
Proof.
  induction pre as [|[y ly] pre IH]; intros H; cbn; auto. rewrite (H y ly) by now left. apply IH. intros. eapply H. right. eauto.
Qed.
Lemma dicts_id_at ch alloc x : dicts_id ch alloc = Some x ->
  exists pre l r, ch = pre ++ (x, l) :: r /\ forall y ly, In (y, ly) pre -> a_find oid_eq_dec (dicts ly) alloc = None.
Proof.
  induction ch as [|[y l] r IH]; cbn; [easy|]. destruct (a_find oid_eq_dec (dicts l) alloc) eqn:F.
  - intros E. injection E as <-. exists [], l, r. split; auto. easy.
  - intros E. destruct (IH E) as (pre & l' & r' & -> & N). exists ((y, l) :: pre), l', r'. split; auto.
    intros z lz [Z|Z]; [injection Z as <- <-; auto|eauto].
Qed.
Lemma dicts_work_eq stop : dicts_work stop och = work oid_eq_dec dicts (fun x (l : layer) r kc => (x, (x, l), r, kc)) (fun '(_, (k, _)) => k) stop och.
Proof. unfold dicts_work, work. reflexivity. Qed.

(** the dicts above a dict are those of the layers above *)
Lemma on_top_chain d e : In e (chain_opt (on_top d)) -> In e (chain_opt d).
Proof.
  destruct d as [[x [|kv m] p]|]; cbn; auto.
Qed.
Lemma look_dict_chain ch alloc i e : In e (chain_opt (look_dict ch alloc i)) ->
  exists pre x l r, ch = pre ++ (x, l) :: r /\ d_addr e = N.of_nat x /\ look_dict ((x, l) :: r) alloc i = Some e.
Proof.
  induction ch as [|[x l] r IH]; cbn [look_dict]; [intros []|].
  destruct (a_find oid_eq_dec (dicts l) alloc) as [v|] eqn:F.
  - cbn [chain_opt]. rewrite chain_eq. intros [<-|I].
    + exists [], x, l, r. split; auto. split; auto. cbn [look_dict]. now rewrite F.
    + cbn [d_parent] in I. destruct (od_cut (v i)); [destruct I|]. apply on_top_chain, IH in I as (pre & y & ly & ry & -> & A & L).
      exists ((x, l) :: pre), y, ly, ry. auto.
  - intros I. apply IH in I as (pre & y & ly & ry & -> & A & L). exists ((x, l) :: pre), y, ly, ry. auto.
Qed.
Lemma dchain_split : forall d pre e t, DictProofs.chain d = pre ++ e :: t -> e :: t = DictProofs.chain e.
Proof.
  fix IH 1. intros [x m p] pre e t E. destruct pre as [|z pre].
  - assert (Z : e = mkDict x m p) by (destruct p; cbn in E; congruence). subst e. now rewrite E.
  - destruct p as [p|]; cbn in E.
    + apply (IH p pre e t). congruence.
    + destruct pre; discriminate.
Qed.
Lemma upto_split stop l : exists t, l = upto stop l ++ t /\ (t = [] \/ exists e t', t = e :: t' /\ stop = Some (d_addr e)).
Proof.
  induction l as [|d l (t & E & P)]; cbn [upto].
  - exists []. auto.
  - destruct (match stop with Some s => (d_addr d =? s)%N | None => false end) eqn:S.
    + exists (d :: l). split; auto. right. exists d, l. split; auto. destruct stop as [s|]; [|easy]. apply N.eqb_eq in S. now subst.
    + exists t. split; auto. cbn. now rewrite <- E.
Qed.
Lemma fne_get d k : opt_get (first_non_empty d) k = d_get d k.
Proof.
  rewrite (d_get_chain d). assert (C := first_non_empty_chain d). assert (X : forall pre, Forall (fun x => d_data x = []) pre -> find_maps (maps pre) k = None).
  { intros pre F. induction F as [|z pre E F IH]; cbn; auto. now rewrite E. }
  destruct (first_non_empty d) as [q|]; cbn [opt_get].
  - destruct C as (pre & -> & F & _). unfold maps. rewrite map_app. fold (maps pre) (maps (DictProofs.chain q)).
    rewrite find_maps_app, X by auto. apply d_get_chain.
  - now rewrite X.
Qed.
Lemma fne_in d q : first_non_empty d = Some q -> In q (DictProofs.chain d).
Proof.
  intros E. assert (C := first_non_empty_chain d). rewrite E in C. destruct C as (pre & -> & _). apply in_app_iff. right.
  rewrite chain_eq. now left.
Qed.
(** a key that is not among the modified ones *)
Lemma unmodified l alloc i pre x xl r other k :
  dvecs_ok l -> och = pre ++ (x, xl) :: r -> look_dict ((x, xl) :: r) alloc i = Some other ->
  ~ In k (d_modified_keys iter other (look_dict ((a, l) :: rest) alloc i)) ->
  d_get other k = None \/ d_get other k = opt_get (look_dict ((a, l) :: rest) alloc i) k.
Proof.
  intros V Eo Lo Nk.
  assert (Do : dicts_ok ((x, xl) :: r)).
  { intros y ly al v j I F. apply (ch_dicts_ok och Go y ly al v j); auto. rewrite Eo. apply in_app_iff. now right. }
  assert (Wo : dict_ok other) by (assert (Y := look_dict_ok _ alloc i Do); now rewrite Lo in Y).
  rewrite modified_gather in Nk by auto. rewrite <- (fne_get other).
  assert (Cq := first_non_empty_chain other). destruct (first_non_empty other) as [q|] eqn:Eq; [|now left]. cbn [opt_get].
  set (orig := look_dict ((a, l) :: rest) alloc i) in *. destruct Cq as (pe & Cq & _ & _).
  assert (Wq : Forall keys_ok (maps (DictProofs.chain q))).
  { unfold dict_ok in Wo. rewrite Cq in Wo. unfold maps in Wo. rewrite map_app in Wo. now apply Forall_app in Wo as [_ Wo]. }
  set (stop := option_map d_addr _) in Nk. destruct (upto_split stop (DictProofs.chain q)) as (t & Et & Pt).
  assert (U : find_maps (maps (upto stop (DictProofs.chain q))) k = None).
  { destruct (find_maps (maps (upto stop (DictProofs.chain q))) k) as [v|] eqn:Fm; auto. exfalso. apply Nk.
    apply in_map_iff. exists (k, v). split; auto. apply gather_In; auto.
    rewrite Et in Wq. unfold maps in Wq. rewrite map_app in Wq. now apply Forall_app in Wq as [Wq _]. }
  rewrite d_get_chain. rewrite Et. unfold maps. rewrite map_app. fold (maps (upto stop (DictProofs.chain q))) (maps t).
  rewrite find_maps_app, U. destruct Pt as [->|(e & t' & -> & Es)]; [now left|]. right.
  rewrite (dchain_split q _ _ _ Et). rewrite <- d_get_chain.
  assert (Ie : In e (chain_opt (look_dict ((x, xl) :: r) alloc i))).
  { rewrite Lo. cbn [chain_opt]. rewrite Cq. apply in_app_iff. right. rewrite Et. apply in_app_iff. right. now left. }
  apply look_dict_chain in Ie as (p1 & y & ly & ry & E1 & A1 & L1).
  destruct orig as [od|] eqn:Eod; cbn [option_map] in stop; [|discriminate]. unfold stop in Es.
  destruct (first_non_empty od) as [q'|] eqn:Eq'; [|discriminate]. cbn in Es. injection Es as Es.
  assert (Iq : In q' (chain_opt (look_dict ((a, l) :: rest) alloc i))).
  { unfold orig in Eod. rewrite Eod. cbn [chain_opt]. now apply fne_in. }
  apply look_dict_chain in Iq as (p2 & z & lz & rz & E2 & A2 & L2).
  assert (z = y) by lia. subst z.
  assert (Io : och = (pre ++ p1) ++ (y, ly) :: ry) by (rewrite Eo, E1, app_assoc; reflexivity).
  destruct p2 as [|w p2]; cbn in E2; injection E2 as E2 E3.
  - exfalso. apply Ao. rewrite Io, map_app. apply in_app_iff. right. cbn. left. congruence.
  - subst w. destruct (Sfx _ _ _ _ _ _ _ Io E3) as [-> ->]. assert (e = q') by congruence. subst e.
    cbn [opt_get]. rewrite <- (fne_get od), Eq'. reflexivity.
Qed.
Lemma modified_sup other orig k : dict_ok other -> sup other -> In k (d_modified_keys iter other orig) -> unsupported_key (Some k) = false.
Proof.
  intros W S. rewrite modified_gather by auto. assert (C := first_non_empty_chain other).
  destruct (first_non_empty other) as [q|]; [|intros []]. destruct C as (pre & C & _). set (stop := option_map d_addr _).
  destruct (upto_split stop (DictProofs.chain q)) as (t & Et & _). intros I. apply in_map_iff in I as ([k' v] & <- & I). cbn [fst].
  apply gather_In in I as [_ I]; auto.
  - eapply find_maps_sup; [|exact I]. unfold sup in S. rewrite C in S. unfold maps in S. rewrite map_app in S. apply Forall_app in S as [_ S].
    rewrite Et, map_app in S. now apply Forall_app in S as [S _].
  - unfold dict_ok in W. rewrite C in W. unfold maps in W. rewrite map_app in W. apply Forall_app in W as [_ W].
    rewrite Et, map_app in W. now apply Forall_app in W as [W _].
Qed.
(** one dict *)
Definition like (d d' : dict) : Prop := dict_ok d' /\ sup d' /\ d_addr d' = d_addr d /\ d_parent d' = d_parent d.
Lemma like_step d d' op : like d d' -> op <> DClear -> (forall x, op <> DDerive x) -> like d (dict_step iter d' op).
Proof.
  intros (W & S & A & P) Nc Nd. destruct (step_shape iter d' op Nd) as [Sa Sp].
  assert (Sp' : d_parent (dict_step iter d' op) = d_parent d').
  { destruct Sp as [Sp|Sp]; auto. destruct d' as [x m p]. destruct op as [k v|k v| |y]; cbn; try congruence.
    - destruct k; [destruct (unsupported_key (Some v0))|]; cbn; auto.
    - destruct k as [k|]; cbn; auto. destruct k as [kk kx]. destruct (unsupported_kind kk); cbn; auto.
      destruct p as [p|]; destruct (m_find m _); cbn; auto. destruct (d_get p _); cbn; auto. }
  split; [|split; [|split; congruence]].
  - apply (dict_step_means iter any_order d' (d_get d') op). now split.
  - assert (K := step_sup iter any_order d' op S W Nd). destruct (dict_step iter d' op) as [x m p]. cbn in Sp', K.
    apply mk_sup; auto. rewrite Sp'. now apply sup_parent.
Qed.
Lemma merge_dict_ok p l alloc i pre x xl r other this :
  dvecs_ok l -> och = pre ++ (x, xl) :: r -> look_dict ((x, xl) :: r) alloc i = Some other ->
  dict_ok this -> sup this -> (forall k, d_get this k = opt_get (look_dict ((a, l) :: rest) alloc i) k) ->
  let '(this', err) := merge_dict iter p (look_dict ((a, l) :: rest) alloc i) other this in
  like this this' /\ merges differ differ p (fun _ : value => True) (d_get this) (d_get other) (d_get this') err.
Proof.
  intros V Eo Lo Wt St Gt. unfold merge_dict.
  assert (Do : dicts_ok ((x, xl) :: r)).
  { intros y ly al v j I F. apply (ch_dicts_ok och Go y ly al v j); auto. rewrite Eo. apply in_app_iff. now right. }
  assert (Wo : dict_ok other) by (assert (Y := look_dict_ok _ alloc i Do); now rewrite Lo in Y).
  assert (So : sup other) by (assert (Y := look_dict_sup _ alloc i Do); now rewrite Lo in Y).
  set (f := fun (d : dict) (k : value) => _).
  assert (X := fold_merge differ differ differ_refl differ_refl f (like this) d_get (d_get other) (fun k j => j = k) p (fun _ => True)
    (d_modified_keys iter other (look_dict ((a, l) :: rest) alloc i)) this).
  destruct (fold_err f _ this) as [this' err]. apply X; clear X.
  - unfold like. auto.
  - intros w d. destruct (value_eqb_spec d w); auto.
  - intros d k L I. unfold f. destruct (d_get other k) as [ov|] eqn:Ok.
    + assert (Sk := modified_sup _ _ _ Wo So I).
      assert (Gk : good_key (Some k) = Some k) by now rewrite good_key_spec, Sk.
      assert (Md : means d (d_get d)) by (split; [apply L|auto]).
      destruct (is_overwrite p) eqn:Ov.
      * assert (M := dict_step_means iter any_order d (d_get d) (DSetKey (Some k) ov) Md). cbn [dict_step f_step] in M. rewrite Gk in M.
        split; [apply (like_step this d (DSetKey (Some k) ov)); auto; discriminate|]. split.
        -- intros j _ N. rewrite (proj2 M). unfold f_set. destruct (value_eqb_spec k j); congruence.
        -- intros j [_ ->]. rewrite (proj2 M). unfold f_set. rewrite value_eqb_refl, Ok. destruct p; try easy.
           split; [left; now destruct (d_get d k)|easy].
      * assert (M := dict_step_means iter any_order d (d_get d) (DGetOrAssign (Some k) ov) Md). cbn [dict_step f_step] in M. rewrite Gk in M.
        assert (R := get_or_assign_result d (d_get d) (Some k) ov Md). rewrite Gk in R.
        assert (Ls := like_step this d (DGetOrAssign (Some k) ov) L ltac:(discriminate) ltac:(discriminate)). cbn [dict_step] in Ls.
        destruct (d_get_or_assign d (Some k) ov) as [tv d']. cbn [fst snd] in *. split; [exact Ls|]. split.
        -- intros j _ N. rewrite (proj2 M). destruct (d_get d k); auto. unfold f_set. destruct (value_eqb_spec k j); congruence.
        -- assert (Gd : d_get d' k = Some tv).
           { rewrite (proj2 M). rewrite R. destruct (d_get d k) as [w|] eqn:Dk; [exact Dk|]. unfold f_set. now rewrite value_eqb_refl. }
           destruct (is_raise p && differ tv ov) eqn:Ra.
           ++ apply andb_true_iff in Ra as [R1 R2]. split; [now destruct p|]. exists k. split; [split; auto|].
              rewrite Ok. destruct (d_get d k) as [w|]; [now subst w|]. subst tv. now rewrite differ_refl in R2.
           ++ intros j [_ ->]. rewrite Gd, Ok. destruct (d_get d k) as [w|]; subst tv.
              ** split; [left; now destruct p|]. intros ->. exact Ra.
              ** split; [left; now destruct p|easy].
    + split; auto. split; auto. intros j [_ ->]. rewrite Ok. split; [now left|]. intros _. now destruct (d_get d k).
  - intros k _ N. rewrite Gt. destruct (in_dec (fun u w => Bool.reflect_dec _ _ (value_eqb_spec u w)) k (d_modified_keys iter other (look_dict ((a, l) :: rest) alloc i))) as [I|I].
    + now elim (N k I).
    + destruct (unmodified l alloc i pre x xl r other k V Eo Lo I); auto.
Qed.

Definition dict_pol (dp sp : policy) (d : ObjectId * value) : policy := if is_explicit_schema (allocation_of (fst d)) then sp else dp.
Lemma merge_dicts_ok dp sp l stop : dvecs_ok l -> stop_ok l stop ->
  let '(l', err) := merge_dicts iter dp sp a rest och stop l in
  dvecs_ok l' /\ only_dicts l l' /\
  merges_at differ differ (dict_pol dp sp) (fun d => wf (fst d)) (dict_view ((a, l) :: rest)) (dict_view och) (dict_view ((a, l') :: rest)) err.
Proof.
  intros V St. unfold merge_dicts.
  set (f := fun (l0 : layer) '(x, xl, r, (alloc, ov)) => _).
  assert (X := fold_merge_at differ differ differ_refl differ_refl f
    (fun l' => dvecs_ok l' /\ only_dicts l l') (fun l' => dict_view ((a, l') :: rest)) (dict_view och)
    (fun w d => fst (snd w) = allocation_of (fst d)) (dict_pol dp sp) (fun d => wf (fst d)) (dicts_work stop och) l).
  destruct (fold_err f _ l) as [l' err]. destruct X as [[X1 X2] X3]; auto.
  - split; auto. unfold only_dicts. auto.
  - intros w d. destruct (oid_eq_dec (fst (snd w)) (allocation_of (fst d))); auto.
  - intros l1 [[[x xl'] r] [alloc ov]] ds todo [V1 O1] Ew _. cbn [fst snd].
    assert (I : In (x, xl', r, (alloc, ov)) (dicts_work stop och)) by (rewrite Ew; apply in_app_iff; right; now left).
    rewrite dicts_work_eq in I. apply work_in in I; [|now intros].
    destruct I as (pre & x' & xl & r' & k' & v & E & Eo & F & N). injection E as <- -> <- <- <-.
    destruct (proj2 Go pre x xl r Eo) as (_ & _ & _ & _ & Di). destruct (Di alloc ov F) as [A _].
    assert (Vo : forall i, look_dict och alloc i = look_dict ((x, xl) :: r) alloc i).
    { intros i. rewrite Eo, look_dict_skip by auto. reflexivity. }
    unfold f. destruct (same_addr (dicts_id ((a, l1) :: rest) alloc) x) eqn:Sa.
    + split; auto. split; auto. apply merges_at_same; [apply differ_refl|]. intros [o k] [_ T]. left. cbn [fst] in T.
      unfold dict_view, dict_in. cbn [fst snd]. rewrite <- T. unfold same_addr in Sa. destruct (dicts_id ((a, l1) :: rest) alloc) as [y|] eqn:Il; [|easy].
      apply Nat.eqb_eq in Sa. subst y. destruct (dicts_id_at _ _ _ Il) as (pre' & l2 & r2 & Et & Nt).
      destruct pre' as [|z pre']; cbn in Et; injection Et as E1 E2.
      * exfalso. apply Ao. rewrite Eo, map_app. apply in_app_iff. right. cbn. left. congruence.
      * subst z. destruct (Sfx pre x xl r pre' l2 r2 Eo E2) as [-> ->].
        rewrite Vo. rewrite E2. change ((a, l1) :: pre' ++ (x, xl) :: r) with (((a, l1) :: pre') ++ (x, xl) :: r).
        now rewrite look_dict_skip.
    + set (p := if is_explicit_schema alloc then sp else dp).
      set (g := fun (l2 : layer) (i : BinNums.N) => _).
      set (l0 := set_dicts l1 alloc (get_or_create_dicts l1 alloc)).
      assert (V0 : dvecs_ok l0).
      { intros al w Fw. unfold l0 in Fw. cbn in Fw. rewrite a_find_set in Fw. destruct (oid_eq_dec alloc al) as [<-|]; [|apply (V1 al w Fw)].
        injection Fw as <-. split; auto. intros i. unfold get_or_create_dicts. destruct (a_find oid_eq_dec (dicts l1) alloc) as [w|] eqn:Fa.
        - apply (V1 alloc w Fa).
        - cbn. split; [constructor|easy]. }
      assert (View0 : forall d, dict_view ((a, l0) :: rest) d = dict_view ((a, l1) :: rest) d).
      { intros [o k]. apply (create_dicts_get a l1 rest alloc). }
      assert (Y := fold_merge_at differ differ differ_refl differ_refl g
        (fun l2 => (dvecs_ok l2 /\ only_dicts l1 l2 /\ a_find oid_eq_dec (dicts l2) alloc <> None) /\
           forall d, fst d = fst d /\ alloc <> allocation_of (fst d) -> dict_view ((a, l2) :: rest) d = dict_view ((a, l1) :: rest) d)
        (fun l2 => dict_view ((a, l2) :: rest)) (dict_view och)
        (fun i d => i = offset (fst d)) (dict_pol dp sp) (fun d => wf (fst d) /\ alloc = allocation_of (fst d)) (below (capacity alloc)) l0).
      destruct (fold_err g _ l0) as [lz err1]. destruct Y as [[(Y1 & Y2 & _) Y3] Y4].
      * split; [split; [auto|split; [apply set_dicts_only|]]|].
        -- unfold l0. cbn. rewrite a_find_set. destruct (oid_eq_dec alloc alloc); [discriminate|congruence].
        -- intros d _. apply View0.
      * intros i d. destruct (N.eq_dec i (offset (fst d))); auto.
      * intros l2 i ds2 todo2 [(V2 & O2 & F2) K2] Eb Un2.
        assert (Li : (i < capacity alloc)%N) by (apply in_below; rewrite Eb; apply in_app_iff; right; now left).
        assert (Ndb := NoDup_below (capacity alloc)). rewrite Eb in Ndb. apply NoDup_remove_2 in Ndb.
        set (o := object_by_offset alloc i).
        assert (W := object_by_offset_wf alloc i A Li). assert (Of := object_by_offset_offset alloc i A Li).
        assert (Oa := object_by_offset_alloc alloc i A Li). fold o in W, Of, Oa.
        unfold g. destruct (look_dict ((x, xl) :: r) alloc i) as [other|] eqn:Lo.
        2:{ cbn [look_dict] in Lo. rewrite F in Lo. discriminate. }
        destruct (a_find oid_eq_dec (dicts l2) alloc) as [v2|] eqn:Fv; [|now elim F2].
        assert (Lt : look_dict ((a, l2) :: rest) alloc i = Some (mkDict (N.of_nat a) (od_data (v2 i)) (if od_cut (v2 i) then None else on_top (look_dict rest alloc i)))).
        { cbn [look_dict]. now rewrite Fv. }
        set (this := mkDict _ _ _) in Lt. rewrite Lt.
        assert (Dt := top_dicts_ok l2 V2).
        assert (Wt : dict_ok this) by (assert (Z := look_dict_ok _ alloc i Dt); now rewrite Lt in Z).
        assert (Ss : sup this) by (assert (Z := look_dict_sup _ alloc i Dt); now rewrite Lt in Z).
        assert (Gt : forall k, d_get this k = opt_get (look_dict ((a, l1) :: rest) alloc i) k).
        { intros k. assert (Z : dict_view ((a, l2) :: rest) (o, k) = dict_view ((a, l0) :: rest) (o, k)).
          { apply Un2; cbn [fst]; [auto|]. intros w Iw ->. apply Ndb. rewrite <- Of. apply in_app_iff. now left. }
          rewrite View0 in Z. unfold dict_view, dict_in in Z. cbn [fst snd] in Z. rewrite Oa, Of, Lt in Z. exact Z. }
        assert (M := merge_dict_ok p l1 alloc i pre x xl r other this V1 Eo Lo Wt Ss Gt).
        destruct (merge_dict iter p (look_dict ((a, l1) :: rest) alloc i) other this) as [this' err2].
        destruct M as [(W' & S' & A' & P') M].
        set (l3 := set_dicts l2 alloc _).
        assert (L3 : forall j, look_dict ((a, l3) :: rest) alloc j = if (j =? i)%N then Some this' else look_dict ((a, l2) :: rest) alloc j).
        { intros j. unfold l3. rewrite set_dicts_look. destruct (oid_eq_dec alloc alloc); [|congruence]. unfold fupd, get_or_create_dicts.
          rewrite Fv. destruct (N.eqb_spec j i) as [->|Nj].
          - rewrite own_of_look; auto. rewrite P'. unfold this. cbn. destruct (od_cut (v2 i)); auto.
          - cbn [look_dict]. rewrite Fv. reflexivity. }
        split; [split; [split; [|split]|]|split].
        -- intros al w Fw. unfold l3 in Fw. cbn in Fw. rewrite a_find_set in Fw. destruct (oid_eq_dec alloc al) as [<-|]; [|apply (V2 al w Fw)].
           injection Fw as <-. split; auto. intros j. unfold fupd, get_or_create_dicts. rewrite Fv. destruct (j =? i)%N; [|apply (V2 alloc v2 Fv)].
           split; [now apply dict_ok_data|now apply sup_data].
        -- eapply only_dicts_trans; [exact O2|apply set_dicts_only].
        -- unfold l3. cbn. rewrite a_find_set. destruct (oid_eq_dec alloc alloc); [discriminate|congruence].
        -- intros d [E1 E2]. rewrite <- (K2 d (conj E1 E2)). unfold dict_view, dict_in, l3. rewrite set_dicts_look.
           destruct (oid_eq_dec alloc (allocation_of (fst d))); [congruence|reflexivity].
        -- intros d [_ E1] E2. unfold dict_view, dict_in. rewrite <- E1, L3. destruct (N.eqb_spec (offset (fst d)) i); [congruence|reflexivity].
        -- assert (Po : forall o', alloc = allocation_of o' -> forall k, dict_pol dp sp (o', k) = p).
           { intros o' Eo' k. unfold dict_pol. cbn [fst]. now rewrite <- Eo'. }
           destruct err2.
           ++ destruct M as (Rp & k & _ & C). exists (o, k). cbn [fst]. split; [split; [split; auto|now rewrite Of]|].
              rewrite Po by auto. split; auto. unfold dict_view, dict_in. cbn [fst snd]. now rewrite Oa, Of, Lt, Vo, Lo.
           ++ intros [o' k] [[W2 E2] E3]. cbn [fst] in *. rewrite Po by auto. unfold dict_view, dict_in. cbn [fst snd].
              rewrite <- E2, <- E3, L3, N.eqb_refl, Lt, Vo, Lo. apply (M k I).
      * intros d [Wd Ed] Nd. exfalso. apply (Nd (offset (fst d))); auto. apply in_below. rewrite Ed.
        change (capacity (allocation_of (fst d))) with (capacity (fst d)). apply offset_lt.
      * split; [split; [exact Y1|eapply only_dicts_trans; eauto]|]. split.
        -- intros d _ Nd. apply Y3. auto.
        -- eapply merges_at_ext; [| | |exact Y4]; auto.
  - intros [o k] _ N. unfold dict_view, dict_in. cbn [fst snd] in *.
    destruct (work_all oid_eq_dec dicts (fun x (l : layer) r kc => (x, (x, l), r, kc)) (fun '(_, (k, _)) => k)) with (stop := stop) (och := och) (k := allocation_of o)
      as (pre & post & E & F & P).
    + now intros.
    + intros [[[x xl] r] [k' c]] I. rewrite <- dicts_work_eq in I. exact (N _ I).
    + destruct P as [->|(s & sl & r & Es & ->)].
      * right. rewrite E. now rewrite look_dict_skip.
      * left. destruct (St pre s sl r E Es) as (Pl & ->). rewrite E, look_dict_skip by auto.
        destruct (pristine_nil l Pl) as (_ & _ & _ & Ll). cbn [look_dict]. rewrite Ll. reflexivity.
Qed.
End Setting.
End MergeLayer.
