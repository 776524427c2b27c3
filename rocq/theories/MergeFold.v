(** Merges location by location, and loops over locations. *)
From Coq Require Import String NArith ZArith List Bool Arith Lia.
From Verif Require Import ObjectIdModel SchemaModel ItemModel DictModel
  SourceModel SourceSpec BagModel BagProofs MergeModel MergeSourceProofs.
Import ListNotations.
Local Open Scope nat_scope.

(** [lo]: what is told apart for sure; [hi]: what may be told apart *)
Definition merges {A D} (lo hi : A -> A -> bool) (p : policy) (dom : D -> Prop) (this other after : D -> option A) (err : bool) : Prop :=
  if err then p = RaiseOnConflict /\ exists o, dom o /\ clash hi (this o) (other o) = true
  else forall o, dom o -> outcome p (this o) (other o) (after o) /\
       (p = RaiseOnConflict -> clash lo (this o) (other o) = false).
Section Merges.
Context {A D : Type} (lo hi : A -> A -> bool).
Hypothesis lo_refl : forall x, lo x x = false.
Hypothesis hi_refl : forall x, hi x x = false.
Notation merges := (merges lo hi).
Implicit Types t o a : D -> option A.
Lemma merges_ext p (dom : D -> Prop) t t' o o' a a' err :
  (forall x, dom x -> t x = t' x) -> (forall x, dom x -> o x = o' x) -> (forall x, dom x -> a x = a' x) ->
  merges p dom t o a err -> merges p dom t' o' a' err.
Proof.
  intros T O A1 M. unfold MergeFold.merges in *. destruct err.
  - destruct M as (E & x & Dx & C). split; auto. exists x. split; auto. now rewrite <- T, <- O.
  - intros x Dx. rewrite <- T, <- O, <- A1 by auto. auto.
Qed.
Lemma merges_empty p (dom : D -> Prop) t o a :
  (forall x, dom x -> t x = None) -> (forall x, dom x -> a x = o x) -> merges p dom t o a false.
Proof.
  intros T A1 x Dx. rewrite T, A1 by auto. split; [|easy]. left. now destruct (o x).
Qed.
Lemma merges_same p (dom : D -> Prop) t o :
  (forall x, dom x -> o x = t x \/ o x = None) -> merges p dom t o t false.
Proof.
  intros T x Dx. destruct (T x Dx) as [-> | ->].
  - split; [left; destruct p, (t x); reflexivity|]. intros _. destruct (t x); cbn; auto.
  - split; [now left|]. intros _. now destruct (t x).
Qed.

(** one location, merged again and again *)
Definition done_at (p : policy) (t o a : option A) : Prop :=
  outcome p t o a /\ (p = RaiseOnConflict -> clash lo t o = false).
Lemma done_again p (t o a a' : option A) : done_at p t o a -> done_at p a o a' -> done_at p t o a'.
Proof.
  intros [O1 C1] [O2 C2]. split; auto.
  unfold outcome in *. destruct O1 as [O1|[E1 O1]], O2 as [O2|[E2 O2]]; rewrite O2, O1; destruct p, t, o; cbn; try discriminate; auto.
Qed.
Lemma clash_done p (t o a : option A) : done_at p t o a -> clash hi a o = true -> clash hi t o = true.
Proof.
  intros [[E|[_ E]] _]; rewrite E; destruct p, t, o; cbn; auto; rewrite hi_refl; discriminate.
Qed.

Lemma fold_merge {S W} (f : S -> W -> S * bool) (inv : S -> Prop) (view : S -> D -> option A) (other : D -> option A)
    (touch : W -> D -> Prop) (p : policy) (dom : D -> Prop) (ws : list W) (s0 : S) :
  inv s0 ->
  (forall w d, touch w d \/ ~ touch w d) ->
  (forall s w, inv s -> In w ws -> let '(s', e) := f s w in
     inv s' /\ (forall d, dom d -> ~ touch w d -> view s' d = view s d) /\
     merges p (fun d => dom d /\ touch w d) (view s) other (view s') e) ->
  (forall d, dom d -> (forall w, In w ws -> ~ touch w d) -> other d = view s0 d \/ other d = None) ->
  let '(s', e) := fold_err f ws s0 in
  inv s' /\ merges p dom (view s0) other (view s') e.
Proof.
  intros I0 Dec F Un.
  assert (X : forall todo ds s, ws = ds ++ todo -> inv s ->
    (forall d, dom d -> (view s d = view s0 d /\ forall w, In w ds -> ~ touch w d) \/ done_at p (view s0 d) (other d) (view s d)) ->
    let '(s', e) := fold_err f todo s in inv s' /\ merges p dom (view s0) other (view s') e).
  { induction todo as [|w todo IH]; intros ds s E I Q.
    - cbn. split; auto. intros d Dd. destruct (Q d Dd) as [[V N]|Dn]; auto. rewrite V.
      rewrite E, app_nil_r in Un. destruct (Un d Dd N) as [-> | ->].
      + split; [left; destruct p, (view s0 d); reflexivity|]. intros _. destruct (view s0 d); cbn; auto.
      + split; [now left|]. intros _. now destruct (view s0 d).
    - rewrite fold_err_cons. specialize (F s w I). destruct (f s w) as [s' e].
      destruct F as (I' & K & M); [rewrite E; apply in_app_iff; right; now left|]. destruct e.
      + split; auto. destruct M as (R & d & [Dd T] & C). split; auto. exists d. split; auto.
        destruct (Q d Dd) as [[V _]|Dn]; [congruence|]. eapply clash_done; eauto.
      + apply (IH (ds ++ [w])); auto; [now rewrite <- app_assoc|]. intros d Dd. destruct (Dec w d) as [T|T].
        * right. destruct (M d (conj Dd T)) as [O C]. destruct (Q d Dd) as [[V _]|Dn].
          -- rewrite <- V. split; auto.
          -- eapply done_again; eauto. split; auto.
        * rewrite K by auto. destruct (Q d Dd) as [[V N]|Dn]; auto. left. split; auto.
          intros w' I2. apply in_app_iff in I2 as [I2|[<-|[]]]; auto. }
  apply (X ws [] s0); auto.
Qed.

(** the same with a policy for each location; a step may rely on what was not touched
    before *)
Definition merges_at (pol : D -> policy) (dom : D -> Prop) (this other after : D -> option A) (err : bool) : Prop :=
  if err then exists x : D, dom x /\ pol x = RaiseOnConflict /\ clash hi (this x) (other x) = true
  else forall x : D, dom x -> done_at (pol x) (this x) (other x) (after x).
Lemma merges_merges_at p dom t o a err : merges p dom t o a err <-> merges_at (fun _ => p) dom t o a err.
Proof.
  unfold MergeFold.merges, merges_at, done_at. destruct err; [|easy]. split.
  - intros (E & x & Dx & C). exists x. auto.
  - intros (x & Dx & E & C). split; auto. exists x. auto.
Qed.
Lemma merges_at_ext pol (dom : D -> Prop) t t' o o' a a' err :
  (forall x, dom x -> t x = t' x) -> (forall x, dom x -> o x = o' x) -> (forall x, dom x -> a x = a' x) ->
  merges_at pol dom t o a err -> merges_at pol dom t' o' a' err.
Proof.
  intros T O A1 M. unfold merges_at in *. destruct err.
  - destruct M as (x & Dx & E & C). exists x. split; auto. split; auto. now rewrite <- T, <- O.
  - intros x Dx. rewrite <- T, <- O, <- A1 by auto. auto.
Qed.
Lemma merges_at_same pol (dom : D -> Prop) t o :
  (forall x, dom x -> o x = t x \/ o x = None) -> merges_at pol dom t o t false.
Proof.
  intros T x Dx. destruct (T x Dx) as [-> | ->].
  - split; [left; destruct (pol x), (t x); reflexivity|]. intros _. destruct (t x); cbn; auto.
  - split; [now left|]. intros _. now destruct (t x).
Qed.
Lemma fold_merge_at {S W} (f : S -> W -> S * bool) (inv : S -> Prop) (view : S -> D -> option A) (other : D -> option A)
    (touch : W -> D -> Prop) (pol : D -> policy) (dom : D -> Prop) (ws : list W) (s0 : S) :
  inv s0 ->
  (forall w d, touch w d \/ ~ touch w d) ->
  (forall s w ds todo, inv s -> ws = ds ++ w :: todo ->
     (forall d, dom d -> (forall w', In w' ds -> ~ touch w' d) -> view s d = view s0 d) ->
     let '(s', e) := f s w in
     inv s' /\ (forall d, dom d -> ~ touch w d -> view s' d = view s d) /\
     merges_at pol (fun d => dom d /\ touch w d) (view s) other (view s') e) ->
  (forall d, dom d -> (forall w, In w ws -> ~ touch w d) -> other d = view s0 d \/ other d = None) ->
  let '(s', e) := fold_err f ws s0 in
  inv s' /\ merges_at pol dom (view s0) other (view s') e.
Proof.
  intros I0 Dec F Un.
  assert (X : forall todo ds s, ws = ds ++ todo -> inv s ->
    (forall d, dom d -> (view s d = view s0 d /\ forall w, In w ds -> ~ touch w d) \/
       (done_at (pol d) (view s0 d) (other d) (view s d) /\ exists w, In w ds /\ touch w d)) ->
    let '(s', e) := fold_err f todo s in inv s' /\ merges_at pol dom (view s0) other (view s') e).
  { induction todo as [|w todo IH]; intros ds s E I Q.
    - cbn. split; auto. intros d Dd. destruct (Q d Dd) as [[V N]|[Dn _]]; auto. rewrite V.
      rewrite E, app_nil_r in Un. destruct (Un d Dd N) as [-> | ->].
      + split; [left; destruct (pol d), (view s0 d); reflexivity|]. intros _. destruct (view s0 d); cbn; auto.
      + split; [now left|]. intros _. now destruct (view s0 d).
    - rewrite fold_err_cons. specialize (F s w ds todo I E). destruct (f s w) as [s' e].
      destruct F as (I' & K & M).
      { intros d Dd N. destruct (Q d Dd) as [[V _]|[_ (w' & I1 & T1)]]; auto. now elim (N w' I1). }
      destruct e.
      + split; auto. destruct M as (d & [Dd T] & R & C). exists d. split; auto. split; auto.
        destruct (Q d Dd) as [[V _]|[Dn _]]; [congruence|]. eapply clash_done; eauto.
      + apply (IH (ds ++ [w])); auto; [now rewrite <- app_assoc|]. intros d Dd. destruct (Dec w d) as [T|T].
        * right. split; [|exists w; split; auto; apply in_app_iff; right; now left].
          specialize (M d (conj Dd T)). destruct (Q d Dd) as [[V _]|[Dn _]].
          -- rewrite <- V. exact M.
          -- eapply done_again; eauto.
        * rewrite K by auto. destruct (Q d Dd) as [[V N]|[Dn (w' & I1 & T1)]].
          -- left. split; auto. intros w' I2. apply in_app_iff in I2 as [I2|[<-|[]]]; auto.
          -- right. split; auto. exists w'. split; auto. apply in_app_iff. now left. }
  apply (X ws [] s0); auto.
Qed.
End Merges.

(** ** Worklists *)
Lemma dedup_in {A K} (dec : forall a b : K, {a = b} + {a <> b}) (k : A -> K) l : forall used x,
  In x (dedup dec k used l) -> ~ In (k x) used /\ exists a b, l = a ++ x :: b /\ forall y, In y a -> k y <> k x.
Proof.
  induction l as [|y l IH]; intros used x; cbn; [easy|]. destruct (in_dec dec (k y) used) as [U|U].
  - intros I. destruct (IH used x I) as (N & a & b & -> & F). split; auto. exists (y :: a), b. split; auto.
    intros z [<-|Z]; auto. congruence.
  - intros [<-|I].
    + split; auto. exists [], l. split; auto.
    + destruct (IH _ x I) as (N & a & b & -> & F). split; [intros X; apply N; now right|]. exists (y :: a), b. split; auto.
      intros z [<-|Z]; auto. intros E. apply N. now left.
Qed.
Lemma dedup_all {A K} (dec : forall a b : K, {a = b} + {a <> b}) (k : A -> K) l : forall used x,
  In x l -> In (k x) used \/ exists y, In y (dedup dec k used l) /\ k y = k x.
Proof.
  induction l as [|y l IH]; intros used x; cbn; [easy|]. intros I. destruct (in_dec dec (k y) used) as [U|U].
  - destruct I as [<-|I]; auto.
  - destruct I as [<-|I]; [right; exists y; split; auto; now left|].
    destruct (IH (k y :: used) x I) as [[E|J]|(z & Z & E)]; auto.
    + right. exists y. split; auto. now left.
    + right. exists z. split; auto. now right.
Qed.
Lemma flat_map_split {A B} (g : A -> list B) ls P e Q : flat_map g ls = P ++ e :: Q ->
  exists l1 z l2 P' Q', ls = l1 ++ z :: l2 /\ g z = P' ++ e :: Q' /\ P = flat_map g l1 ++ P'.
Proof.
  revert P. induction ls as [|z ls IH]; intros P E; cbn in E; [now destruct P|].
  assert (Sp : forall (x P : list B) y, x ++ y = P ++ e :: Q -> (exists Q', x = P ++ e :: Q') \/ exists P', P = x ++ P' /\ y = P' ++ e :: Q).
  { induction x as [|b x IHx]; intros P0 y E0; cbn in E0; [right; exists P0; auto|].
    destruct P0 as [|c P0]; cbn in E0; injection E0 as -> E0.
    - left. exists x. reflexivity.
    - destruct (IHx P0 y E0) as [(Q' & ->)|(P' & -> & ->)]; [left; exists Q'; auto|right; exists P'; auto]. }
  destruct (Sp _ _ _ E) as [(Q' & E1)|(P' & -> & E1)].
  - exists [], z, ls, P, Q'. auto.
  - destruct (IH P' E1) as (l1 & z' & l2 & P2 & Q2 & -> & E2 & ->). exists (z :: l1), z', l2, P2, Q2. cbn. rewrite app_assoc. auto.
Qed.
Lemma new_layers_at stop och l1 x l r l2 : new_layers stop och = l1 ++ (x, l, r) :: l2 ->
  exists pre, och = pre ++ (x, l) :: r /\ map fst l1 = pre.
Proof.
  revert l1. induction och as [|[y ly] och IH]; intros l1 E; cbn in E; [now destruct l1|].
  destruct (match stop with Some s => y =? s | None => false end); [now destruct l1|].
  destruct l1 as [|z l1]; cbn in E; injection E as E1 E2.
  - subst. now exists [].
  - destruct (IH l1 E2) as (pre & -> & <-). subst z. exists ((y, ly) :: map fst l1). auto.
Qed.
Lemma new_layers_rest stop och : exists post, och = map fst (new_layers stop och) ++ post /\
  (post = [] \/ exists s l r, stop = Some s /\ post = (s, l) :: r).
Proof.
  induction och as [|[y ly] och IH]; cbn; [exists []; auto|].
  destruct (match stop with Some s => y =? s | None => false end) eqn:E.
  - exists ((y, ly) :: och). split; auto. right. destruct stop as [s|]; [|easy]. apply Nat.eqb_eq in E. subst. eauto.
  - destruct IH as (post & E2 & P). exists post. cbn. now rewrite <- E2.
Qed.

Section Work.
Context {K V A : Type} (dec : forall a b : K, {a = b} + {a <> b}) (sel : layer -> list (K * V))
  (mk : nat -> layer -> list (nat * layer) -> K * V -> A) (kof : A -> K).
Hypothesis kof_mk : forall x l r kv, kof (mk x l r kv) = fst kv.
Definition work (stop : option nat) (och : list (nat * layer)) : list A :=
  dedup dec kof [] (flat_map (fun '(x, l, r) => map (mk x l r) (sel l)) (new_layers stop och)).
Lemma a_find_split (m : list (K * V)) k v : a_find dec m k = Some v -> exists a b, m = a ++ (k, v) :: b.
Proof.
  induction m as [|[k' v'] m IH]; cbn; [easy|]. destruct (dec k' k) as [->|N].
  - intros E. injection E as ->. now exists [], m.
  - intros E. destruct (IH E) as (a & b & ->). now exists ((k', v') :: a), b.
Qed.
Lemma work_in stop och e : In e (work stop och) -> exists pre x l r k v, e = mk x l r (k, v) /\ och = pre ++ (x, l) :: r /\
  a_find dec (sel l) k = Some v /\ forall y ly, In (y, ly) pre -> a_find dec (sel ly) k = None.
Proof.
  intros I. apply dedup_in in I as (_ & P & Q & E & F). apply flat_map_split in E as (l1 & [[x l] r] & l2 & P' & Q' & E1 & E2 & ->).
  apply new_layers_at in E1 as (pre & -> & <-).
  apply map_eq_app in E2 as (m1 & m2 & Em & E2 & E3). symmetry in E3. destruct m2 as [|[k v] m2]; cbn in E3; [easy|]. injection E3 as -> E3.
  rewrite kof_mk in F. cbn in F.
  assert (NI : forall m : list (K * V), (forall k' v', In (k', v') m -> k' <> k) -> a_find dec m k = None).
  { clear. induction m as [|[k' v'] m IH]; cbn; auto. intros H. destruct (dec k' k) as [->|]; [exfalso; eapply H; [now left|auto]|].
    apply IH. intros. eapply H. right. eauto. }
  exists (map fst l1), x, l, r, k, v. split; auto. split; auto. split.
  - rewrite Em. assert (G : forall k' v', In (k', v') m1 -> k' <> k).
    { intros k' v' J. specialize (F (mk x l r (k', v'))). rewrite kof_mk in F. apply F. apply in_app_iff. right. rewrite <- E2. now apply List.in_map. }
    clear -G. induction m1 as [|[k' v'] m1 IH]; cbn; [destruct (dec k k); congruence|].
    destruct (dec k' k) as [->|]; [exfalso; eapply G; [now left|auto]|]. apply IH. intros. eapply G. right. eauto.
  - intros y ly J. apply in_map_iff in J as ([[y' ly'] r'] & J1 & J2). cbn in J1. injection J1 as -> ->.
    apply NI. intros k' v' J. specialize (F (mk y ly r' (k', v'))). rewrite kof_mk in F. apply F. apply in_app_iff. left.
    apply in_flat_map. exists (y, ly, r'). split; auto. now apply List.in_map.
Qed.
Lemma work_all stop och k : (forall e, In e (work stop och) -> kof e <> k) ->
  exists pre post, och = pre ++ post /\ (forall y ly, In (y, ly) pre -> a_find dec (sel ly) k = None) /\
  (post = [] \/ exists s l r, stop = Some s /\ post = (s, l) :: r).
Proof.
  intros N. destruct (new_layers_rest stop och) as (post & E & P). exists (map fst (new_layers stop och)), post. split; auto. split; auto.
  intros y ly I. apply in_map_iff in I as ([[y' ly'] r] & I1 & I2). cbn in I1. injection I1 as -> ->.
  destruct (a_find dec (sel ly) k) as [v|] eqn:F; auto. exfalso. apply a_find_split in F as (m1 & m2 & Em).
  destruct (dedup_all dec kof (flat_map (fun '(x, l, r) => map (mk x l r) (sel l)) (new_layers stop och)) [] (mk y ly r (k, v))) as [[]|(e & I & Ek)].
  - apply in_flat_map. exists (y, ly, r). split; auto. apply List.in_map. rewrite Em. apply in_app_iff. right. now left.
  - rewrite kof_mk in Ek. exact (N e I Ek).
Qed.
End Work.
