From Coq Require Import ZArith NArith List Bool Lia Sorting.Sorted.
From Verif Require Import LruModel LruSpec.
Import ListNotations.
Open Scope Z_scope.

Section P.
Context {V : Type}.
Notation cache := (cache V).
Notation entry := (entry V).
Notation op := (op V).

Definition conv (e : entry) : N * V * Z := (ekey e, evalue e, esize e).
Definition abs (c : cache) : lru V := mkLru (max_total c) (rev (map conv (dict c))).

Fixpoint sum (l : list entry) : Z := match l with [] => 0 | e :: l' => esize e + sum l' end.
Lemma sum_app l1 l2 : sum (l1 ++ l2) = sum l1 + sum l2.
Proof. induction l1; cbn [sum app]; lia. Qed.

Record Inv (c : cache) : Prop := {
  i_nodup : NoDup (map ekey (dict c));
  i_total : total c = sum (dict c);
  i_nonneg : Forall (fun e => 0 <= esize e) (dict c);
  i_max : total c <= max_total c;
  i_pos : 0 <= max_total c
}.

Lemma sum_nonneg l : Forall (fun e : entry => 0 <= esize e) l -> 0 <= sum l.
Proof. induction 1; cbn [sum]; lia. Qed.

Definition del (k : N) (d : list entry) := filter (fun e : entry => negb (N.eqb (ekey e) k)) d.

Lemma dict_get_In k d (e : entry) : dict_get k d = Some e -> In e d /\ ekey e = k.
Proof. unfold dict_get. intros H. apply find_some in H. destruct H as [H E]. apply N.eqb_eq in E. auto. Qed.
Lemma dict_get_None k (d : list entry) : dict_get k d = None <-> ~ In k (map ekey d).
Proof.
  unfold dict_get. split.
  - intros H Hin. apply in_map_iff in Hin. destruct Hin as (e & <- & Hin).
    pose proof (find_none _ _ H e Hin) as E. cbn in E. rewrite N.eqb_refl in E. discriminate.
  - intros H. destruct (find _ d) eqn:E; auto. apply find_some in E. destruct E as [Hin E].
    apply N.eqb_eq in E. exfalso. apply H. rewrite <- E. apply in_map; auto.
Qed.

Lemma del_notin k (d : list entry) : ~ In k (map ekey (del k d)).
Proof.
  intros H. apply in_map_iff in H. destruct H as (e & E & Hin). unfold del in Hin.
  apply filter_In in Hin. destruct Hin as [_ Hn]. subst k. rewrite N.eqb_refl in Hn. discriminate.
Qed.
Lemma del_id k (d : list entry) : ~ In k (map ekey d) -> del k d = d.
Proof.
  unfold del. induction d as [|e d IH]; cbn; auto. intros H.
  destruct (N.eqb_spec (ekey e) k); [exfalso; apply H; auto|]. cbn. f_equal. apply IH. tauto.
Qed.
Lemma map_del_NoDup k (d : list entry) : NoDup (map ekey d) -> NoDup (map ekey (del k d)).
Proof.
  unfold del. induction d as [|e d IH]; cbn; auto. intros H. inversion H as [|? ? Hn Hd]; subst.
  destruct (negb (N.eqb (ekey e) k)); cbn; auto. constructor; auto.
  intros Hin. apply Hn. apply in_map_iff in Hin. destruct Hin as (x & E & Hx).
  apply filter_In in Hx. rewrite <- E. apply in_map. tauto.
Qed.
Lemma del_Forall (P : entry -> Prop) k d : Forall P d -> Forall P (del k d).
Proof. rewrite !Forall_forall. intros H x Hx. apply filter_In in Hx. apply H; tauto. Qed.

Lemma sum_del k (d : list entry) e : NoDup (map ekey d) -> dict_get k d = Some e -> sum (del k d) = sum d - esize e.
Proof.
  unfold dict_get, del. induction d as [|x d IH]; cbn [find]; [discriminate|].
  intros H Hg. inversion H as [|? ? Hn Hd]; subst. cbn [filter].
  destruct (N.eqb_spec (ekey x) k) as [E|E]; cbn [negb].
  - injection Hg as <-. subst k. change (filter _ d) with (del (ekey x) d). rewrite del_id by auto.
    cbn [sum]. lia.
  - cbn [sum]. rewrite IH; auto. lia.
Qed.

Lemma dict_set_new k x (d : list entry) : ~ In k (map ekey d) -> dict_set k x d = d ++ [(k, x)].
Proof. intros H. unfold dict_set. rewrite (proj2 (dict_get_None k d) H). reflexivity. Qed.

(** get *)
Lemma get_spec c k :
  get c k = match dict_get k (dict c) with
            | None => (c, None)
            | Some e => (mkCache (max_total c) (del k (dict c) ++ [(k, snd e)]) (total c), Some (evalue e))
            end.
Proof.
  unfold get, dict_pop. destruct (dict_get k (dict c)) as [e|]; auto.
  fold (del k (dict c)). rewrite dict_set_new by apply del_notin. reflexivity.
Qed.

Lemma get_Inv c k : Inv c -> Inv (fst (get c k)).
Proof.
  intros I. rewrite get_spec. destruct (dict_get k (dict c)) as [e|] eqn:E; auto. cbn [fst].
  destruct (dict_get_In _ _ _ E) as [Hin Ek]. destruct I as [I1 I2 I3 I4 I5].
  constructor; cbn [dict total max_total]; auto.
  - rewrite map_app. cbn. rewrite <- (rev_involutive (_ ++ _)). apply NoDup_rev. rewrite rev_app_distr.
    cbn. constructor; [rewrite <- in_rev; apply del_notin|]. apply NoDup_rev, map_del_NoDup; auto.
  - rewrite sum_app, (sum_del k _ e) by auto. cbn [sum]. unfold esize at 2; cbn. unfold esize. lia.
  - apply Forall_app. split; [apply del_Forall; auto|]. constructor; auto.
    rewrite Forall_forall in I3. apply (I3 e Hin).
Qed.

(** the eviction loop *)
Fixpoint evict (limit t : Z) (l : list entry) : list entry :=
  match l with
  | [] => []
  | e :: l' => if t <=? limit then l else evict limit (t - esize e) l'
  end.

Lemma shrink_loop_spec limit : forall items c,
  dict c = items -> NoDup (map ekey items) -> total c = sum items ->
  shrink_loop limit items c =
  mkCache (max_total c) (evict limit (total c) items) (sum (evict limit (total c) items)).
Proof.
  induction items as [|e l IH]; intros c Hd Hn Ht; cbn [shrink_loop evict].
  - destruct c; cbn in *; subst; reflexivity.
  - destruct (total c <=? limit) eqn:E; [rewrite <- Hd, <- Ht || rewrite <- Ht, <- Hd; destruct c; reflexivity|].
    inversion Hn as [|? ? H1 H2]; subst.
    assert (Hp : dict_pop (ekey e) (dict c) = Some (e, l)).
    { unfold dict_pop, dict_get. rewrite Hd. cbn [find filter]. rewrite N.eqb_refl. cbn [negb].
      change (filter _ l) with (del (ekey e) l). rewrite del_id by auto. reflexivity. }
    rewrite Hp. rewrite IH; cbn [dict total max_total]; auto. rewrite Ht. cbn [sum]. lia.
Qed.

Lemma shrink_spec limit c : Inv c ->
  shrink limit c = mkCache (max_total c) (evict limit (total c) (dict c)) (sum (evict limit (total c) (dict c))).
Proof.
  intros I. unfold shrink. destruct (total c <=? limit) eqn:E.
  - assert (He : evict limit (total c) (dict c) = dict c).
    { destruct (dict c); cbn [evict]; auto. rewrite E; auto. }
    rewrite He, <- (i_total c I). destruct c; reflexivity.
  - apply shrink_loop_spec; auto; apply I.
Qed.

Lemma evict_suffix limit : forall l t, exists n, evict limit t l = skipn n l.
Proof.
  induction l as [|e l IH]; intros t; cbn [evict]; [exists O; auto|].
  destruct (t <=? limit); [exists O; auto|]. destruct (IH (t - esize e)) as (n & ->). exists (S n). auto.
Qed.

Lemma evict_le limit : 0 <= limit -> forall l t, t = sum l -> sum (evict limit t l) <= limit.
Proof.
  intros Hl. induction l as [|e l IH]; intros t Ht; cbn [evict].
  - cbn [sum]. lia.
  - destruct (Z.leb_spec t limit); [lia|]. apply IH. cbn [sum] in Ht. lia.
Qed.

Lemma skipn_Forall {A} (P : A -> Prop) n l : Forall P l -> Forall P (skipn n l).
Proof. intros H. rewrite <- (firstn_skipn n l) in H. apply Forall_app in H. tauto. Qed.
Lemma NoDup_app_r {A} (l1 l2 : list A) : NoDup (l1 ++ l2) -> NoDup l2.
Proof. induction l1; cbn; auto. intros H; inversion H; auto. Qed.
Lemma skipn_NoDup {A} n (l : list A) : NoDup l -> NoDup (skipn n l).
Proof. intros H. rewrite <- (firstn_skipn n l) in H. apply NoDup_app_r in H. auto. Qed.

Lemma shrink_Inv limit c : 0 <= limit -> Inv c -> Inv (shrink limit c) /\ total (shrink limit c) <= limit.
Proof.
  intros Hl I. rewrite shrink_spec by auto. destruct (evict_suffix limit (dict c) (total c)) as (n & En).
  assert (Hle : sum (evict limit (total c) (dict c)) <= limit) by (apply evict_le; auto; apply I).
  split; [|exact Hle].
  destruct I as [I1 I2 I3 I4 I5]. constructor; cbn [dict total max_total]; auto.
  - rewrite En, <- skipn_map. apply skipn_NoDup; auto.
  - rewrite En. apply skipn_Forall; auto.
  - assert (sum (skipn n (dict c)) <= sum (dict c)).
    { rewrite <- (firstn_skipn n (dict c)) at 2. rewrite sum_app.
      assert (0 <= sum (firstn n (dict c))); [|lia]. apply sum_nonneg.
      rewrite <- (firstn_skipn n (dict c)) in I3. apply Forall_app in I3. tauto. }
    rewrite En. lia.
Qed.

Lemma in_evict limit t l x : In x (evict limit t l) -> In x l.
Proof.
  destruct (evict_suffix limit l t) as (n & ->). intros H. rewrite <- (firstn_skipn n l). apply in_app_iff; auto.
Qed.

Lemma step_Inv c o : Inv c -> sizes_ok o -> Inv (fst (step c o)).
Proof.
  intros I Ho. destruct o as [k|k v n|k|m| | |]; cbn [step]; auto.
  - pose proof (get_Inv c k I) as H. destruct (get c k). auto.
  - unfold set. pose proof (get_Inv c k I) as H. rewrite get_spec in *.
    destruct (dict_get k (dict c)) as [e|] eqn:E; auto. cbn [fst] in H.
    cbn in Ho. destruct (Z.ltb_spec (max_total c) n); auto.
    destruct (shrink_Inv (max_total c - n) c ltac:(lia) I) as [Is Hs].
    assert (Hnot : ~ In k (map ekey (dict (shrink (max_total c - n) c)))).
    { rewrite shrink_spec by auto. cbn [dict]. apply dict_get_None in E. intros Hin. apply E.
      apply in_map_iff in Hin. destruct Hin as (x & <- & Hx). apply in_map. eapply in_evict; eauto. }
    cbn [fst]. rewrite dict_set_new by auto.
    assert (Em : max_total (shrink (max_total c - n) c) = max_total c) by (rewrite shrink_spec by auto; auto).
    destruct Is as [I1 I2 I3 I4 I5]. constructor; cbn [dict total max_total]; auto.
    + rewrite map_app. cbn. rewrite <- (rev_involutive (_ ++ _)). apply NoDup_rev. rewrite rev_app_distr.
      cbn. constructor; [rewrite <- in_rev; auto|]. apply NoDup_rev; auto.
    + rewrite sum_app. cbn [sum]. unfold esize at 1; cbn. lia.
    + apply Forall_app. split; auto.
    + lia.
  - cbn [fst]. unfold remove, dict_pop. destruct (dict_get k (dict c)) as [e|] eqn:E; auto.
    fold (del k (dict c)). destruct (dict_get_In _ _ _ E) as [Hin _]. destruct I as [I1 I2 I3 I4 I5].
    constructor; cbn [dict total max_total]; auto.
    + apply map_del_NoDup; auto.
    + rewrite (sum_del k _ e); auto. lia.
    + apply del_Forall; auto.
    + rewrite Forall_forall in I3. specialize (I3 e Hin). cbn in I3. lia.
  - unfold set_max. destruct (Z.ltb_spec m 0); auto. cbn [fst].
    destruct (shrink_Inv m c ltac:(lia) I) as [[I1 I2 I3 I4 I5] Hs]. constructor; cbn [dict total max_total]; auto.
  - destruct I; constructor; cbn; auto; try lia. constructor.
Qed.

Lemma create_Inv m c : create m = Some c -> Inv c.
Proof.
  unfold create. destruct (Z.ltb_spec m 0); [discriminate|]. intros [= <-].
  constructor; cbn; auto; constructor.
Qed.

Lemma run_snoc ops o : forall c : cache,
  run c (ops ++ [o]) =
  let '(c1, rs) := run c ops in let '(c2, r) := step c1 o in (c2, rs ++ [r]).
Proof.
  induction ops as [|o' ops IH]; intros c; cbn [app run].
  - destruct (step c o). reflexivity.
  - destruct (step c o') as [c1 r1]. rewrite IH. destruct (run c1 ops) as [c2 rs].
    destruct (step c2 o) as [c3 r]. reflexivity.
Qed.

Lemma run_Inv ops : forall c, Inv c -> Forall sizes_ok ops -> Inv (fst (run c ops)).
Proof.
  induction ops as [|o ops IH]; intros c I H; cbn [run]; auto.
  inversion H; subst. pose proof (step_Inv c o I) as Hs. destruct (step c o) as [c1 r1]. cbn in Hs.
  specialize (IH c1). destruct (run c1 ops). cbn in *. auto.
Qed.

(** * Refinement *)
Lemma lookup_abs k d : lookup k (rev (map conv d)) = option_map conv (dict_get k (rev d)).
Proof.
  rewrite <- map_rev. generalize (rev d). intros l. unfold lookup, dict_get.
  induction l as [|e l IH]; cbn; auto. unfold key_of at 1; cbn. destruct (N.eqb (ekey e) k); auto.
Qed.

Lemma dict_get_rev k (d : list entry) : NoDup (map ekey d) -> dict_get k (rev d) = dict_get k d.
Proof.
  intros H. destruct (dict_get k (rev d)) as [e|] eqn:E.
  - destruct (dict_get_In _ _ _ E) as [Hin Ek]. apply in_rev in Hin.
    destruct (dict_get k d) as [e'|] eqn:E'.
    + destruct (dict_get_In _ _ _ E') as [Hin' Ek']. f_equal.
      clear E E'. subst k. induction d as [|x d IH]; [destruct Hin|]. cbn in H. inversion H as [|? ? Hn Hd]; subst.
      destruct Hin as [->|Hin], Hin' as [->|Hin']; auto.
      * exfalso. apply Hn. rewrite <- Ek'. apply in_map; auto.
      * exfalso. apply Hn. rewrite Ek'. apply in_map; auto.
    + apply dict_get_None in E'. exfalso. apply E'. rewrite <- Ek. apply in_map; auto.
  - apply dict_get_None in E. symmetry. apply dict_get_None. intros Hin. apply E.
    rewrite map_rev, <- in_rev. auto.
Qed.

Lemma without_abs k d : without k (rev (map conv d)) = rev (map conv (del k d)).
Proof.
  unfold without, del. rewrite <- !map_rev.
  assert (H : forall l, filter (fun e => negb (N.eqb (key_of e) k)) (map conv l) =
                        map conv (filter (fun e => negb (N.eqb (ekey e) k)) l)).
  { induction l as [|e l IH]; cbn [filter map]; auto. change (key_of (conv e)) with (ekey e).
    destruct (N.eqb (ekey e) k); cbn [negb map]; congruence. }
  rewrite H. f_equal. clear H. induction d as [|e d IH]; cbn; auto.
  rewrite filter_app, IH. cbn. destruct (negb (N.eqb (ekey e) k)); cbn; auto. rewrite app_nil_r. auto.
Qed.

Lemma sum_abs d : sum_sizes (rev (map conv d)) = sum d.
Proof.
  rewrite <- map_rev. transitivity (sum (rev d)).
  - induction (rev d) as [|e l IH]; cbn; auto. rewrite IH. reflexivity.
  - induction d as [|e d IH]; cbn [rev]; auto. rewrite sum_app, IH. cbn [sum]. lia.
Qed.

Lemma sum_sizes_app (l1 l2 : list (N * V * Z)) : sum_sizes (l1 ++ l2) = sum_sizes l1 + sum_sizes l2.
Proof. induction l1; cbn [sum_sizes app]; lia. Qed.

Lemma fitting_snoc x : forall (p : list (N * V * Z)) room,
  Forall (fun e => 0 <= size_of e) (p ++ [x]) ->
  fitting room (p ++ [x]) =
  if sum_sizes (p ++ [x]) <=? room then p ++ [x] else fitting room p.
Proof.
  induction p as [|e p IH]; intros room H; cbn [app fitting].
  - cbn [sum_sizes]. rewrite Z.add_0_r. destruct (size_of x <=? room); auto.
  - inversion H as [|? ? He Hp]; subst.
    assert (Hs : 0 <= sum_sizes (p ++ [x])).
    { clear -Hp. induction Hp; cbn [sum_sizes]; lia. }
    cbn [sum_sizes].
    destruct (Z.leb_spec (size_of e) room) as [L|L].
    + rewrite IH by auto. destruct (Z.leb_spec (sum_sizes (p ++ [x])) (room - size_of e)),
        (Z.leb_spec (size_of e + sum_sizes (p ++ [x])) room); try lia; auto.
    + destruct (Z.leb_spec (size_of e + sum_sizes (p ++ [x])) room); [lia|auto].
Qed.

Lemma fitting_evict limit : forall l t, t = sum l -> Forall (fun e => 0 <= esize e) l ->
  fitting limit (rev (map conv l)) = rev (map conv (evict limit t l)).
Proof.
  induction l as [|e l IH]; intros t Ht H; auto.
  cbn [map rev evict]. inversion H; subst.
  rewrite fitting_snoc.
  - change (rev (map conv l) ++ [conv e]) with (rev (map conv (e :: l))).
    rewrite sum_abs. destruct (sum (e :: l) <=? limit); auto.
    apply IH; auto. cbn [sum]. lia.
  - apply Forall_app. split; [|constructor; auto]. apply Forall_rev. apply Forall_map. auto.
Qed.

Lemma lookup_abs' c k : Inv c -> lookup k (recent_first (abs c)) = option_map conv (dict_get k (dict c)).
Proof. intros I. cbn [abs recent_first]. rewrite lookup_abs, dict_get_rev; auto. apply I. Qed.

Lemma step_refines c o : Inv c -> sizes_ok o ->
  spec_step (abs c) o = (abs (fst (step c o)), snd (step c o)).
Proof.
  intros I Ho. destruct o as [k|k v n|k|m| | |]; cbn [step spec_step]; auto.
  - rewrite lookup_abs' by auto. rewrite get_spec. destruct (dict_get k (dict c)) as [e|] eqn:E; auto.
    cbn [option_map fst snd]. unfold abs; cbn [max_total dict budget recent_first].
    rewrite without_abs, map_app, rev_app_distr. cbn.
    destruct (dict_get_In _ _ _ E) as [_ <-]. destruct e as [k [v n]]. reflexivity.
  - rewrite lookup_abs' by auto. unfold set. rewrite get_spec.
    destruct (dict_get k (dict c)) as [e|] eqn:E; cbn [option_map].
    + cbn [fst snd]. unfold abs; cbn [max_total dict budget recent_first].
      rewrite without_abs, map_app, rev_app_distr. cbn.
      destruct (dict_get_In _ _ _ E) as [_ <-]. destruct e as [k [v' n']]. reflexivity.
    + cbn [abs budget]. rewrite Z.leb_antisym. destruct (Z.ltb_spec (max_total c) n); cbn [negb]; auto.
      rewrite shrink_spec by auto. cbn [fst snd max_total dict].
      rewrite dict_set_new.
      2:{ apply dict_get_None in E. intros Hin. apply E. apply in_map_iff in Hin. destruct Hin as (x & <- & Hx).
          apply in_map. eapply in_evict; eauto. }
      unfold abs; cbn [max_total dict budget recent_first].
      rewrite map_app, rev_app_distr. cbn.
      rewrite (fitting_evict _ _ (total c)) by apply I. reflexivity.
  - unfold remove, dict_pop. destruct (dict_get k (dict c)) as [e|] eqn:E; cbn [fst snd];
      unfold abs; cbn [max_total dict budget recent_first]; rewrite without_abs; auto.
    rewrite del_id; auto. apply dict_get_None; auto.
  - unfold set_max. rewrite Z.leb_antisym. destruct (Z.ltb_spec m 0); cbn [negb]; auto.
    rewrite shrink_spec by auto. unfold abs; cbn [fst snd max_total dict budget recent_first].
    rewrite (fitting_evict _ _ (total c)) by apply I. reflexivity.
  - unfold abs; cbn [budget recent_first fst snd]. rewrite sum_abs, (i_total c I). reflexivity.
Qed.

Lemma run_refines ops : forall c, Inv c -> Forall sizes_ok ops ->
  spec_run (abs c) ops = (abs (fst (run c ops)), snd (run c ops)).
Proof.
  induction ops as [|o ops IH]; intros c I H; cbn [run spec_run]; auto.
  inversion H; subst. rewrite step_refines by auto.
  pose proof (step_Inv c o I) as Hs. destruct (step c o) as [c1 r1]. cbn [fst snd] in *.
  rewrite IH by auto. destruct (run c1 ops); auto.
Qed.

(** * Recency *)
Lemma last_use_from_snoc k (o : op) : forall h i acc,
  last_use_from i k (h ++ [o]) acc =
  if names k o then S (i + length h) else last_use_from i k h acc.
Proof.
  induction h as [|o' h IH]; intros i acc; cbn [app last_use_from].
  - cbn. rewrite Nat.add_0_r. auto.
  - rewrite IH. cbn [length]. replace (S i + length h)%nat with (i + S (length h))%nat by lia. auto.
Qed.
Lemma last_use_snoc k (o : op) h :
  last_use k (h ++ [o]) = if names k o then S (length h) else last_use k h.
Proof. unfold last_use. rewrite last_use_from_snoc. auto. Qed.
Lemma last_use_le k (h : list op) : (last_use k h <= length h)%nat.
Proof.
  induction h as [|o h IH] using rev_ind; [cbn; lia|].
  rewrite last_use_snoc, app_length. cbn. destruct (names k o); lia.
Qed.

Definition older (h : list op) (a b : entry) : Prop := (last_use (ekey a) h < last_use (ekey b) h)%nat.

Lemma SS_app {A} (R : A -> A -> Prop) l1 l2 :
  StronglySorted R (l1 ++ l2) <-> StronglySorted R l1 /\ StronglySorted R l2 /\ (forall x y, In x l1 -> In y l2 -> R x y).
Proof.
  induction l1 as [|a l1 IH]; cbn [app].
  - split; [intros H; repeat split; auto; [constructor|contradiction]|tauto].
  - split.
    + intros H. inversion H as [|? ? Hl Ha]; subst. apply IH in Hl. destruct Hl as (A1 & B & C).
      apply Forall_app in Ha. destruct Ha as [Ha1 Ha2]. split; [constructor; auto|]. split; auto.
      intros x y [->|Hx] Hy; auto. rewrite Forall_forall in Ha2; auto.
    + intros (A1 & B & C). inversion A1 as [|? ? Hl Ha]; subst. constructor.
      * apply IH. repeat split; auto. intros; apply C; auto; right; auto.
      * apply Forall_app. split; auto. apply Forall_forall. intros; apply C; auto. left; auto.
Qed.
Lemma SS_filter {A} (R : A -> A -> Prop) f l : StronglySorted R l -> StronglySorted R (filter f l).
Proof.
  induction 1 as [|a l Hl IH Ha]; cbn; [constructor|]. destruct (f a); auto. constructor; auto.
  rewrite Forall_forall in *. intros x Hx. apply filter_In in Hx. apply Ha; tauto.
Qed.
Lemma SS_skipn {A} (R : A -> A -> Prop) n l : StronglySorted R l -> StronglySorted R (skipn n l).
Proof. intros H. rewrite <- (firstn_skipn n l) in H. apply SS_app in H. tauto. Qed.
Lemma SS_weaken {A} (R R' : A -> A -> Prop) l :
  (forall x y, In x l -> In y l -> R x y -> R' x y) -> StronglySorted R l -> StronglySorted R' l.
Proof.
  intros H HS. induction HS as [|a l Hl IH Ha]; constructor.
  - apply IH. intros; apply H; auto; right; auto.
  - rewrite Forall_forall in *. intros x Hx. apply H; [left; auto|right; auto|auto].
Qed.

(** sortedness is kept when no entry of the list is named by the operation *)
Lemma sorted_unnamed h o l :
  (forall e, In e l -> names (ekey e) o = false) ->
  StronglySorted (older h) l -> StronglySorted (older (h ++ [o])) l.
Proof.
  intros Hn. apply SS_weaken. intros x y Hx Hy. unfold older. rewrite !last_use_snoc, !Hn; auto.
Qed.
(** ... and when the named key is appended at the end *)
Lemma sorted_named h o l e :
  (forall x, In x l -> names (ekey x) o = false) -> names (ekey e) o = true ->
  StronglySorted (older h) l -> StronglySorted (older (h ++ [o])) (l ++ [e]).
Proof.
  intros Hn He Hl. apply SS_app. split; [apply sorted_unnamed; auto|]. split; [repeat constructor|].
  intros x y Hx [<-|[]]. unfold older. rewrite !last_use_snoc, Hn, He by auto.
  pose proof (last_use_le (ekey x) h). lia.
Qed.

Lemma del_unnamed k d e (o : op) : In e (del k d) -> (names (ekey e) o = N.eqb k (ekey e)) -> names (ekey e) o = false.
Proof.
  intros Hin ->. apply filter_In in Hin. destruct Hin as [_ H]. rewrite N.eqb_sym.
  destruct (N.eqb (ekey e) k); auto; discriminate.
Qed.
Lemma notin_unnamed k (d : list entry) e : ~ In k (map ekey d) -> In e d -> N.eqb k (ekey e) = false.
Proof. intros H Hin. apply N.eqb_neq. intros ->. apply H. apply in_map; auto. Qed.

Lemma step_sorted h c o : Inv c -> sizes_ok o ->
  StronglySorted (older h) (dict c) -> StronglySorted (older (h ++ [o])) (dict (fst (step c o))).
Proof.
  intros I Ho HS. destruct o as [k|k v n|k|m| | |]; cbn [step].
  - rewrite get_spec. destruct (dict_get k (dict c)) as [e|] eqn:E; cbn [fst dict].
    + apply sorted_named.
      * intros x Hx. eapply del_unnamed; eauto.
      * cbn. apply N.eqb_refl.
      * apply SS_filter; auto.
    + apply sorted_unnamed; auto. intros e He. cbn. eapply notin_unnamed; eauto. apply dict_get_None; auto.
  - unfold set. rewrite get_spec. destruct (dict_get k (dict c)) as [e|] eqn:E; cbn [fst dict].
    + apply sorted_named.
      * intros x Hx. eapply del_unnamed; eauto.
      * cbn. apply N.eqb_refl.
      * apply SS_filter; auto.
    + apply dict_get_None in E. assert (Hun : forall e, In e (dict c) -> names (ekey e) (OSet k v n) = false)
        by (intros e He; cbn; eapply notin_unnamed; eauto).
      destruct (Z.ltb_spec (max_total c) n); cbn [fst].
      * apply sorted_unnamed; auto.
      * rewrite shrink_spec by auto. cbn [dict]. rewrite dict_set_new.
        2:{ intros Hin. apply E. apply in_map_iff in Hin. destruct Hin as (x & <- & Hx).
            apply in_map. eapply in_evict; eauto. }
        apply sorted_named.
        -- intros x Hx. apply Hun. eapply in_evict; eauto.
        -- cbn. apply N.eqb_refl.
        -- destruct (evict_suffix (max_total c - n) (dict c) (total c)) as (j & ->). apply SS_skipn; auto.
  - cbn [fst]. unfold remove, dict_pop. destruct (dict_get k (dict c)); cbn [dict];
      apply sorted_unnamed; auto. apply SS_filter; auto.
  - unfold set_max. destruct (m <? 0); cbn [fst]; [apply sorted_unnamed; auto|].
    rewrite shrink_spec by auto. cbn [dict]. apply sorted_unnamed; auto.
    destruct (evict_suffix m (dict c) (total c)) as (j & ->). apply SS_skipn; auto.
  - constructor.
  - apply sorted_unnamed; auto.
  - apply sorted_unnamed; auto.
Qed.

Lemma run_sorted h : forall c : cache, Inv c -> dict c = [] -> Forall sizes_ok h ->
  StronglySorted (older h) (dict (fst (run c h))).
Proof.
  induction h as [|o h IH] using rev_ind; intros c I Hd H.
  - cbn. rewrite Hd. constructor.
  - apply Forall_app in H. destruct H as [H Ho]. inversion Ho; subst.
    rewrite run_snoc. pose proof (run_Inv h c I H) as I1. specialize (IH c I Hd H).
    destruct (run c h) as [c1 rs]. cbn in I1, IH.
    pose proof (step_sorted h c1 o I1 ltac:(auto) IH) as R. destruct (step c1 o). auto.
Qed.

Lemma fresh_dict m (c : cache) : create m = Some c -> dict c = [].
Proof. unfold create. destruct (m <? 0); [discriminate|]. intros [= <-]. auto. Qed.

Lemma order_is_recency m (c0 : cache) h : create m = Some c0 -> Forall sizes_ok h ->
  forall i j a b, (i < j)%nat ->
  nth_error (dict (fst (run c0 h))) i = Some a -> nth_error (dict (fst (run c0 h))) j = Some b ->
  (last_use (ekey a) h < last_use (ekey b) h)%nat.
Proof.
  intros Hc Hh. pose proof (run_sorted h c0 (create_Inv _ _ Hc) (fresh_dict _ _ Hc) Hh) as HS.
  induction HS as [|x l Hl IH Hx]; intros [|i] [|j] a b Hij Ha Hb; try discriminate; try lia.
  - cbn in Ha, Hb. injection Ha as <-. rewrite Forall_forall in Hx. apply Hx. eapply nth_error_In; eauto.
  - cbn in Ha, Hb. apply (IH i j); auto. lia.
Qed.

(** what eviction leaves is a suffix of the old-to-new order *)
Lemma SS_suffix (R : entry -> entry -> Prop) l n a b :
  (forall x y, R x y -> R y x -> False) -> NoDup l ->
  StronglySorted R l -> In a l -> In b l -> R a b -> ~ In b (skipn n l) -> ~ In a (skipn n l).
Proof.
  intros Has Hnd HS Ha Hb Hr Hnb Hna. rewrite <- (firstn_skipn n l) in HS, Hb.
  apply SS_app in HS. destruct HS as (_ & _ & HS). apply in_app_iff in Hb. destruct Hb as [Hb|Hb]; [|tauto].
  eapply Has; [exact Hr|]. apply HS; auto.
Qed.

Lemma NoDup_of_keys (l : list entry) : NoDup (map ekey l) -> NoDup l.
Proof. apply NoDup_map_inv. Qed.

Lemma evict_lru_only m (c0 : cache) h o a b : create m = Some c0 -> Forall sizes_ok h -> sizes_ok o ->
  match o with OSet _ _ _ | OSetMax _ | OGet _ => True | _ => False end ->
  let c := fst (run c0 h) in let c' := fst (step c o) in
  held c a -> held c b -> (last_use a h < last_use b h)%nat -> ~ held c' b -> ~ held c' a.
Proof.
  intros Hc Hh Ho Hop c c' Ha Hb Hab Hnb Hna.
  pose proof (run_Inv h c0 (create_Inv _ _ Hc) Hh) as I. fold c in I.
  pose proof (run_sorted h c0 (create_Inv _ _ Hc) (fresh_dict _ _ Hc) Hh) as HS. fold c in HS.
  unfold held in *.
  assert (Hsub : forall n, ~ In b (map ekey (skipn n (dict c))) -> ~ In a (map ekey (skipn n (dict c)))).
  { intros n Hn Hin. apply in_map_iff in Hin. destruct Hin as (ea & Ea & Hin).
    apply in_map_iff in Ha. destruct Ha as (ea' & Ea' & Ha).
    apply in_map_iff in Hb. destruct Hb as (eb & Eb & Hb).
    assert (ea = ea').
    { assert (Hin0 : In ea (dict c)) by (rewrite <- (firstn_skipn n (dict c)); apply in_app_iff; auto).
      pose proof (i_nodup c I) as Hnd.
      assert (Ee : ekey ea = ekey ea') by congruence. clear -Hin0 Ha Ee Hnd.
      induction (dict c) as [|x l IH]; [destruct Ha|]. inversion Hnd as [|? ? Hx Hl]; subst.
      destruct Hin0 as [->|H1], Ha as [->|H2]; auto; exfalso; apply Hx;
        [rewrite Ee|rewrite <- Ee]; apply in_map; auto. }
    subst ea'.
    eapply (SS_suffix (older h) (dict c) n ea eb); eauto.
    - unfold older. intros; lia.
    - apply NoDup_of_keys. apply I.
    - unfold older. congruence.
    - intros Hb'. apply Hn. rewrite <- Eb. apply in_map. auto. }
  unfold c' in *.
  assert (Hmove : forall k (e : entry) y, In y (map ekey (dict c)) ->
             In y (map ekey (del k (dict c) ++ [(k, snd e)]))).
  { intros k e y Hy. rewrite map_app, in_app_iff. cbn. destruct (N.eqb_spec y k) as [->|Hne]; auto.
    left. apply in_map_iff in Hy. destruct Hy as (x & <- & Hx). apply in_map. apply filter_In. split; auto.
    apply negb_true_iff, N.eqb_neq. auto. }
  destruct o as [k|k v n|k|m'| | |]; cbn [step] in *; try contradiction.
  - rewrite get_spec in *. destruct (dict_get k (dict c)) as [e|] eqn:E; cbn [fst dict] in *; auto.
  - unfold set in *. rewrite get_spec in *. destruct (dict_get k (dict c)) as [e|] eqn:E; cbn [fst dict] in *; auto.
    destruct (Z.ltb_spec (max_total c) n); cbn [fst dict] in *; auto.
    rewrite shrink_spec in * by auto. cbn [dict] in *.
    rewrite dict_set_new in *.
    2,3: apply dict_get_None in E; intros Hin; apply E; apply in_map_iff in Hin; destruct Hin as (x & <- & Hx);
         apply in_map; eapply in_evict; eauto.
    destruct (evict_suffix (max_total c - n) (dict c) (total c)) as (j & Ej). rewrite Ej in *.
    rewrite map_app, in_app_iff in *. cbn in *.
    destruct Hna as [Hna|[<-|[]]].
    + apply (Hsub j); auto.
    + apply dict_get_None in E. auto.
  - unfold set_max in *. destruct (m' <? 0); cbn [fst dict] in *; auto.
    rewrite shrink_spec in * by auto. cbn [dict] in *.
    destruct (evict_suffix m' (dict c) (total c)) as (j & Ej). rewrite Ej in *. apply (Hsub j); auto.
Qed.

(** * Transparency: what set answered last *)
Lemma last_answer_snoc k (o : op) r : forall h rs acc, length h = length rs ->
  last_answer k (h ++ [o]) (rs ++ [r]) acc =
  match o, r with
  | OSet k' _ _, RValue v => if N.eqb k' k then v else last_answer k h rs acc
  | _, _ => last_answer k h rs acc end.
Proof.
  induction h as [|o' h IH]; intros [|r' rs] acc Hl; try discriminate; cbn [app last_answer].
  - destruct o, r; auto.
  - apply IH. auto.
Qed.

Lemma run_length ops : forall c : cache, length (snd (run c ops)) = length ops.
Proof.
  induction ops as [|o ops IH]; intros c; cbn [run]; auto. destruct (step c o) as [c1 r].
  specialize (IH c1). destruct (run c1 ops). cbn in *. auto.
Qed.

Lemma in_del k d (e : entry) : In e (del k d) -> In e d /\ N.eqb k (ekey e) = false.
Proof.
  intros H. apply filter_In in H. destruct H as [H1 H2]. split; auto. rewrite N.eqb_sym.
  destruct (N.eqb (ekey e) k); auto; discriminate.
Qed.

Lemma transparent_inv h : forall c : cache, Inv c -> dict c = [] -> Forall sizes_ok h ->
  forall e, In e (dict (fst (run c h))) -> last_answer (ekey e) h (snd (run c h)) None = Some (evalue e).
Proof.
  induction h as [|o h IH] using rev_ind; intros c I Hd H e.
  - cbn. rewrite Hd. intros [].
  - apply Forall_app in H. destruct H as [H Ho]. apply Forall_inv in Ho.
    rewrite run_snoc. pose proof (run_Inv h c I H) as I1. specialize (IH c I Hd H).
    pose proof (run_length h c) as Hlen.
    destruct (run c h) as [c1 rs] eqn:Er. cbn [fst snd] in *.
    destruct (step c1 o) as [c2 r] eqn:Es. cbn [fst snd]. intros He.
    rewrite last_answer_snoc by auto.
    destruct o as [k|k v n|k|m| | |]; cbn [step] in Es.
    + rewrite get_spec in Es. destruct (dict_get k (dict c1)) as [x|] eqn:E;
        apply pair_equal_spec in Es; destruct Es as [<- <-]; cbn [dict] in He; auto.
      apply in_app_iff in He. destruct He as [He|[<-|[]]]; [apply in_del in He; apply IH; tauto|].
      destruct (dict_get_In _ _ _ E) as [Hx Ek]. specialize (IH x Hx). rewrite Ek in IH. exact IH.
    + unfold set in Es. rewrite get_spec in Es. destruct (dict_get k (dict c1)) as [x|] eqn:E.
      * apply pair_equal_spec in Es; destruct Es as [<- <-]; cbn [dict] in He.
        apply in_app_iff in He. destruct He as [He|[<-|[]]].
        -- apply in_del in He. destruct He as [He ->]. apply IH; auto.
        -- cbn [ekey fst]. rewrite N.eqb_refl. reflexivity.
      * assert (Hun : forall e, In e (dict c1) -> N.eqb k (ekey e) = false).
        { intros y Hy. apply dict_get_None in E. eapply notin_unnamed; eauto. }
        destruct (max_total c1 <? n); apply pair_equal_spec in Es; destruct Es as [<- <-].
        -- rewrite Hun by auto. apply IH; auto.
        -- cbn [dict] in He. rewrite shrink_spec in He by auto. cbn [dict] in He.
           rewrite dict_set_new in He.
           2:{ apply dict_get_None in E. intros Hin; apply E. apply in_map_iff in Hin.
               destruct Hin as (y & <- & Hy). apply in_map. eapply in_evict; eauto. }
           apply in_app_iff in He. destruct He as [He|[<-|[]]].
           ++ apply in_evict in He. rewrite Hun by auto. apply IH; auto.
           ++ cbn [ekey fst]. rewrite N.eqb_refl. reflexivity.
    + apply pair_equal_spec in Es; destruct Es as [<- <-]. apply IH.
      unfold remove, dict_pop in He. destruct (dict_get k (dict c1)); auto. cbn [dict] in He.
      apply in_del in He. tauto.
    + apply IH. unfold set_max in Es. destruct (m <? 0); apply pair_equal_spec in Es; destruct Es as [<- _]; auto.
      rewrite shrink_spec in He by auto. cbn [dict] in He. eapply in_evict; eauto.
    + apply pair_equal_spec in Es; destruct Es as [<- _]. destruct He.
    + apply pair_equal_spec in Es; destruct Es as [<- _]. auto.
    + apply pair_equal_spec in Es; destruct Es as [<- _]. auto.
Qed.

Lemma read_is_last_answer m (c0 : cache) h k v : create m = Some c0 -> Forall sizes_ok h ->
  snd (step (fst (run c0 h)) (OGet k)) = RValue (Some v) ->
  last_answer k h (snd (run c0 h)) None = Some v.
Proof.
  intros Hc Hh. cbn [step]. rewrite get_spec.
  destruct (dict_get k (dict (fst (run c0 h)))) as [e|] eqn:E; cbn [snd]; [|discriminate].
  intros [= <-]. destruct (dict_get_In _ _ _ E) as [He <-].
  apply transparent_inv; auto; [apply (create_Inv _ _ Hc)|apply (fresh_dict _ _ Hc)].
Qed.

Lemma accounting m (c0 : cache) h : create m = Some c0 -> Forall sizes_ok h ->
  let c := fst (run c0 h) in
  NoDup (map ekey (dict c)) /\ total c = fold_right Z.add 0 (map esize (dict c)) /\
  0 <= total c <= max_total c.
Proof.
  intros Hc Hh c. pose proof (run_Inv h c0 (create_Inv _ _ Hc) Hh) as I. fold c in I.
  assert (E : forall l, sum l = fold_right Z.add 0 (map esize l)) by (induction l; cbn; congruence).
  split; [apply I|]. split; [rewrite <- E; apply I|]. split; [|apply I].
  rewrite (i_total c I). apply sum_nonneg. apply I.
Qed.

Lemma refinement m (c0 : cache) h : create m = Some c0 -> Forall sizes_ok h ->
  snd (run c0 h) = snd (spec_run (mkLru m []) h).
Proof.
  intros Hc Hh. pose proof (run_refines h c0 (create_Inv _ _ Hc) Hh) as R.
  assert (Ea : abs c0 = mkLru m []).
  { unfold create in Hc. destruct (m <? 0); [discriminate|]. injection Hc as <-. reflexivity. }
  rewrite Ea in R. rewrite R. reflexivity.
Qed.
End P.
