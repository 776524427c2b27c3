(** Lists and dicts of a layer. *)
From Coq Require Import String NArith ZArith List Bool Arith Lia Permutation.
From Verif Require Import ObjectIdModel ObjectIdProofs SchemaModel ItemModel DictModel DictSpec DictProofs
  SourceModel SourceSpec SourceProofs BagModel CollProofs BagProofs LayerProofs MergeModel.
From Coq Require Import ZifyBool ZifyN.
Import ListNotations.
Local Open Scope nat_scope.
Notation chain := BagModel.chain.

Definition items (l : option (list ditem)) : list ditem := match l with Some l => l | None => [] end.

(** ** Vectors of lists *)
Lemma lvec_edit_get v i (up : N -> option (list ditem)) f j :
  lvec_get (lvec_edit v i (up i) f) j (up j) =
  if (j =? i)%N then Some (f (items (lvec_get v i (up i)))) else lvec_get v j (up j).
Proof.
  unfold lvec_edit, lvec_get. cbn [lv_data lv_parent]. destruct (lv_data v) as [g|m].
  - unfold fupd. destruct (N.eqb_spec j i) as [->|]; auto. destruct (g i); reflexivity.
  - destruct (a_find N.eq_dec m i) as [l|] eqn:F.
    + rewrite a_find_set. destruct (N.eq_dec i j) as [<-|N].
      * rewrite N.eqb_refl. reflexivity.
      * destruct (N.eqb_spec j i); [congruence|reflexivity].
    + destruct (should_use_array (lv_size v) (N.of_nat (length m) + 1)).
      * unfold fupd. destruct (N.eqb_spec j i) as [->|].
        -- destruct (lv_parent v); reflexivity.
        -- destruct (a_find N.eq_dec m j); auto. destruct (lv_parent v); reflexivity.
      * rewrite a_find_set. destruct (N.eq_dec i j) as [<-|N].
        -- rewrite N.eqb_refl. destruct (lv_parent v); reflexivity.
        -- destruct (N.eqb_spec j i); [congruence|reflexivity].
Qed.
Lemma lvec_edit_size v i up f : lv_size (lvec_edit v i up f) = lv_size v.
Proof. reflexivity. Qed.
Lemma has_lists_none ch alloc : has_lists ch alloc = None -> forall i, look_list ch alloc i = None.
Proof.
  induction ch as [|[x l] ch IH]; cbn; auto. destruct (a_find oid_eq_dec (lists l) alloc); [discriminate|auto].
Qed.
Lemma get_or_create_lists_look a l rest alloc n i :
  lvec_get (get_or_create_lists rest l alloc n) i (look_list rest alloc i) = look_list ((a, l) :: rest) alloc i.
Proof.
  unfold get_or_create_lists. cbn [look_list]. destruct (a_find oid_eq_dec (lists l) alloc) as [v|]; auto.
  destruct (has_lists rest alloc) as [p|] eqn:H.
  - unfold lvec_get. cbn. destruct (should_use_array (lv_size p) n); reflexivity.
  - rewrite (has_lists_none rest alloc H i). unfold lvec_get. cbn [lv_data lv_parent]. destruct (should_use_array (capacity alloc) n); reflexivity.
Qed.

Section Containers.
Variable asize : ObjectId -> N.
Notation layer_ok := (layer_ok asize).
Notation heap_ok := (heap_ok asize).

Definition only_lists (l l' : layer) : Prop :=
  frozen l' = frozen l /\ parent l' = parent l /\ small l' = small l /\ big l' = big l /\ dicts l' = dicts l.
Lemma only_lists_attr h a l l' r attr o : only_lists l l' -> attr_in h ((a, l') :: r) attr o = attr_in h ((a, l) :: r) attr o.
Proof. intros (_ & _ & E1 & E2 & _). unfold attr_in. cbn. now rewrite E1, E2. Qed.
Lemma only_lists_dict a l l' r o k : only_lists l l' -> dict_in ((a, l') :: r) o k = dict_in ((a, l) :: r) o k.
Proof. intros (_ & _ & _ & _ & E). unfold dict_in. cbn. now rewrite E. Qed.
Lemma only_lists_ups h l l' : only_lists l l' -> ups h l' = ups h l.
Proof. intros (_ & E & _). unfold ups. now rewrite E. Qed.

Lemma chain_lists_size h a l alloc v : heap_ok h -> layer_ok h a l -> has_lists ((a, l) :: ups h l) alloc = Some v ->
  is_allocation alloc /\ lv_size v = capacity alloc.
Proof.
  intros H L. cbn. destruct (a_find oid_eq_dec (lists l) alloc) as [w|] eqn:F.
  - intros E. injection E as <-. destruct L as (_ & _ & _ & Li & _). exact (Li alloc w F).
  - assert (X := ups_in asize h a l H L). induction (ups h l) as [|[x lx] r IH]; cbn; [discriminate|].
    destruct (a_find oid_eq_dec (lists lx) alloc) as [w|] eqn:F2.
    + intros E. injection E as <-. destruct (X x lx (or_introl eq_refl)) as (E & _ & _).
      destruct (H x lx E) as (_ & _ & _ & Li & _). exact (Li alloc w F2).
    + apply IH. intros y ly I. apply X. now right.
Qed.
Lemma get_or_create_lists_size h a l alloc n : heap_ok h -> layer_ok h a l ->
  lv_size (get_or_create_lists (ups h l) l alloc n) = capacity alloc.
Proof.
  intros H L. unfold get_or_create_lists. destruct (a_find oid_eq_dec (lists l) alloc) as [v|] eqn:F.
  - destruct L as (_ & _ & _ & Li & _). exact (proj2 (Li alloc v F)).
  - destruct (has_lists (ups h l) alloc) as [p|] eqn:P; auto. cbn.
    apply (chain_lists_size h a l alloc p H L). cbn. now rewrite F.
Qed.
Lemma set_lists_ok h a l alloc v : layer_ok h a l -> is_allocation alloc -> lv_size v = capacity alloc -> layer_ok h a (set_lists l alloc v).
Proof.
  intros L A S. destruct (L) as (P & Sm & B & Li & Di). apply (layer_parts asize h a l); auto. cbn [lists dicts set_lists set_dicts]. intros al w F.
  rewrite a_find_set in F. destruct (oid_eq_dec alloc al) as [<-|]; [injection F as <-; auto|auto].
Qed.
Lemma set_lists_only l alloc v : only_lists l (set_lists l alloc v).
Proof. unfold only_lists. cbn. auto. Qed.
Lemma set_lists_look a l rest alloc v al i :
  look_list ((a, set_lists l alloc v) :: rest) al i =
  if oid_eq_dec alloc al then lvec_get v i (look_list rest alloc i) else look_list ((a, l) :: rest) al i.
Proof. cbn. rewrite a_find_set. destruct (oid_eq_dec alloc al) as [<-|]; reflexivity. Qed.

Lemma oid_by_parts o o' : wf o -> wf o' -> allocation_of o = allocation_of o' -> offset o = offset o' -> o = o'.
Proof. intros W W' A E. rewrite <- (object_reassemble o W), <- (object_reassemble o' W'). congruence. Qed.

(** one edit of one list *)
Lemma edit_list_ok h a l o n f : heap_ok h -> layer_ok h a l -> wf o ->
  let alloc := allocation_of o in
  let v := lvec_edit (get_or_create_lists (ups h l) l alloc n) (offset o) (look_list (ups h l) alloc (offset o)) f in
  layer_ok h a (set_lists l alloc v) /\
  forall o', wf o' -> list_in ((a, set_lists l alloc v) :: ups h l) o' =
    if same_oid o o' then Some (f (items (list_in ((a, l) :: ups h l) o))) else list_in ((a, l) :: ups h l) o'.
Proof.
  intros H L W alloc v. split.
  - apply set_lists_ok; auto; [now apply allocation_of_is_allocation|]. unfold v. rewrite lvec_edit_size.
    now apply (get_or_create_lists_size h a l).
  - intros o' W'. unfold list_in. rewrite set_lists_look. fold alloc. destruct (oid_eq_dec alloc (allocation_of o')) as [E|N].
    + unfold v. rewrite (lvec_edit_get _ (offset o) (look_list (ups h l) alloc)).
      rewrite !(get_or_create_lists_look a l). destruct (N.eqb_spec (offset o') (offset o)) as [Eo|No].
      * replace (same_oid o o') with true; [reflexivity|]. symmetry. apply same_oid_spec. apply oid_by_parts; auto.
      * replace (same_oid o o') with false; [now rewrite E|]. symmetry. destruct (same_oid o o') eqn:S; auto.
        apply same_oid_spec in S. congruence.
    + replace (same_oid o o') with false; [reflexivity|]. symmetry. destruct (same_oid o o') eqn:S; auto.
      apply same_oid_spec in S. subst. now elim N.
Qed.

(** ** Dicts *)
Definition only_dicts (l l' : layer) : Prop :=
  frozen l' = frozen l /\ parent l' = parent l /\ small l' = small l /\ big l' = big l /\ lists l' = lists l.
Lemma only_dicts_attr h a l l' r attr o : only_dicts l l' -> attr_in h ((a, l') :: r) attr o = attr_in h ((a, l) :: r) attr o.
Proof. intros (_ & _ & E1 & E2 & _). unfold attr_in. cbn. now rewrite E1, E2. Qed.
Lemma only_dicts_list a l l' r o : only_dicts l l' -> list_in ((a, l') :: r) o = list_in ((a, l) :: r) o.
Proof. intros (_ & _ & _ & _ & E). unfold list_in. cbn. now rewrite E. Qed.
Lemma only_dicts_ups h l l' : only_dicts l l' -> ups h l' = ups h l.
Proof. intros (_ & E & _). unfold ups. now rewrite E. Qed.

Definition opt_dict_ok (d : option dict) : Prop := match d with Some d => dict_ok d | None => True end.
Lemma on_top_ok d : opt_dict_ok d -> opt_dict_ok (on_top d).
Proof.
  destruct d as [[x m p]|]; cbn; auto. destruct m; [|auto]. intros D. exact (parent_ok _ _ _ D).
Qed.
(** keys of supported types only *)
Definition sup (d : dict) : Prop := Forall (fun m : dmap => forall k, In k (map fst m) -> unsupported_key (Some k) = false) (maps (DictProofs.chain d)).
Definition opt_sup (d : option dict) : Prop := match d with Some d => sup d | None => True end.
Lemma mk_sup x m p : (forall k, In k (map fst m) -> unsupported_key (Some k) = false) -> opt_sup p -> sup (mkDict x m p).
Proof. intros K P. unfold sup. rewrite chain_eq. cbn. constructor; auto. destruct p; [exact P|constructor]. Qed.
Lemma sup_data d : sup d -> forall k, In k (map fst (d_data d)) -> unsupported_key (Some k) = false.
Proof. unfold sup. rewrite chain_eq. cbn. intros H. now inversion H. Qed.
Lemma sup_parent d : sup d -> opt_sup (d_parent d).
Proof. unfold sup. rewrite chain_eq. cbn. intros H. inversion H; subst. destruct (d_parent d); [exact H3|exact I]. Qed.
Lemma on_top_sup d : opt_sup d -> opt_sup (on_top d).
Proof.
  destruct d as [[x m p]|]; cbn; auto. destruct m; [|auto]. intros D. exact (sup_parent _ D).
Qed.
Lemma find_maps_sup ms k v : Forall (fun m : dmap => forall k, In k (map fst m) -> unsupported_key (Some k) = false) ms ->
  find_maps ms k = Some v -> unsupported_key (Some k) = false.
Proof.
  intros F. induction F as [|m ms H F IH]; cbn; [easy|]. destruct (m_find m k) eqn:E; [|exact IH].
  intros _. apply H. destruct (in_dec (fun x y => Bool.reflect_dec _ _ (value_eqb_spec x y)) k (map fst m)) as [I|I]; auto.
  apply m_find_None in I. congruence.
Qed.
Definition opt_get (d : option dict) (k : value) : option ditem := match d with Some d => d_get d k | None => None end.
Lemma on_top_get d k : opt_get (on_top d) k = opt_get d k.
Proof. destruct d as [[x [|kv m] p]|]; cbn; auto. Qed.
Definition dicts_ok (ch : list (nat * layer)) : Prop :=
  forall x l alloc v i, In (x, l) ch -> a_find oid_eq_dec (dicts l) alloc = Some v -> good_keys (od_data (v i)).
Lemma look_dict_ok ch alloc i : dicts_ok ch -> opt_dict_ok (look_dict ch alloc i).
Proof.
  induction ch as [|[x l] ch IH]; intros D; cbn; auto.
  assert (D' : dicts_ok ch) by (intros y ly al v j I F; apply (D y ly al v j); auto; now right).
  destruct (a_find oid_eq_dec (dicts l) alloc) as [v|] eqn:F; [|auto]. cbn.
  apply mk_ok; [apply (D x l alloc v i); [now left|exact F]|]. destruct (od_cut (v i)); auto.
  specialize (on_top_ok _ (IH D')). now destruct (on_top (look_dict ch alloc i)).
Qed.
Lemma look_dict_sup ch alloc i : dicts_ok ch -> opt_sup (look_dict ch alloc i).
Proof.
  induction ch as [|[x l] ch IH]; intros D; cbn; auto.
  assert (D' : dicts_ok ch) by (intros y ly al v j I F; apply (D y ly al v j); auto; now right).
  destruct (a_find oid_eq_dec (dicts l) alloc) as [v|] eqn:F; [|auto]. cbn.
  apply mk_sup; [apply (D x l alloc v i); [now left|exact F]|]. destruct (od_cut (v i)); [exact I|].
  exact (on_top_sup _ (IH D')).
Qed.
Lemma ups_dicts_ok h a l : heap_ok h -> layer_ok h a l -> dicts_ok (ups h l).
Proof.
  intros H L x lx alloc v i I F. destruct (ups_in asize h a l H L x lx I) as (E & _ & _).
  destruct (H x lx E) as (_ & _ & _ & _ & Di). exact (proj2 (Di alloc v F) i).
Qed.
Lemma layer_dicts_ok h a l x : heap_ok h -> layer_ok h a l -> dicts_ok ((x, l) :: ups h l).
Proof.
  intros H L y ly alloc v i [E|I] F; [|exact (ups_dicts_ok h a l H L y ly alloc v i I F)].
  injection E as <- <-. destruct L as (_ & _ & _ & _ & Di). exact (proj2 (Di alloc v F) i).
Qed.
Lemma chain_dicts_ok h a : heap_ok h -> dicts_ok (chain h a).
Proof.
  intros H x lx alloc v i I F. destruct (chain_in asize h H a x lx I) as (E & _ & _).
  destruct (H x lx E) as (_ & _ & _ & _ & Di). exact (proj2 (Di alloc v F) i).
Qed.

Lemma set_dicts_ok h a l alloc v : layer_ok h a l -> is_allocation alloc -> (forall i, good_keys (od_data (v i))) -> layer_ok h a (set_dicts l alloc v).
Proof.
  intros L A S. destruct (L) as (P & Sm & B & Li & Di). apply (layer_parts asize h a l); auto. cbn [lists dicts set_lists set_dicts]. intros al w F.
  rewrite a_find_set in F. destruct (oid_eq_dec alloc al) as [<-|]; [injection F as <-; auto|auto].
Qed.
Lemma set_dicts_only l alloc v : only_dicts l (set_dicts l alloc v).
Proof. unfold only_dicts. cbn. auto. Qed.
Lemma set_dicts_look a l rest alloc v al i :
  look_dict ((a, set_dicts l alloc v) :: rest) al i =
  if oid_eq_dec alloc al then Some (mkDict (N.of_nat a) (od_data (v i)) (if od_cut (v i) then None else on_top (look_dict rest alloc i)))
  else look_dict ((a, l) :: rest) al i.
Proof. cbn. rewrite a_find_set. destruct (oid_eq_dec alloc al) as [<-|]; reflexivity. Qed.
Lemma get_or_create_dicts_ok h a l alloc i : layer_ok h a l -> good_keys (od_data (get_or_create_dicts l alloc i)).
Proof.
  intros (_ & _ & _ & _ & Di). unfold get_or_create_dicts. destruct (a_find oid_eq_dec (dicts l) alloc) as [v|] eqn:F.
  - exact (proj2 (Di alloc v F) i).
  - cbn. split; [constructor|easy].
Qed.
(** creating the dicts of an allocation changes no content *)
Lemma create_dicts_get a l rest alloc al i k :
  opt_get (look_dict ((a, set_dicts l alloc (get_or_create_dicts l alloc)) :: rest) al i) k =
  opt_get (look_dict ((a, l) :: rest) al i) k.
Proof.
  rewrite set_dicts_look. destruct (oid_eq_dec alloc al) as [<-|]; auto. cbn. unfold get_or_create_dicts.
  destruct (a_find oid_eq_dec (dicts l) alloc) as [v|]; [reflexivity|]. cbn.
  rewrite <- on_top_get. now destruct (on_top (look_dict rest alloc i)).
Qed.
Lemma own_of_look a d rest alloc i : d_addr d = N.of_nat a ->
  d_parent d = None \/ d_parent d = on_top (look_dict rest alloc i) ->
  mkDict (N.of_nat a) (od_data (own_of d)) (if od_cut (own_of d) then None else on_top (look_dict rest alloc i)) = d.
Proof.
  destruct d as [x m p]. cbn. intros -> [-> | -> ]; auto. now destruct (on_top (look_dict rest alloc i)).
Qed.

Variable iter : dmap -> dmap.
Hypothesis any_order : forall m, Permutation (iter m) m.
Lemma step_shape d op : (forall x, op <> DDerive x) ->
  d_addr (dict_step iter d op) = d_addr d /\ (d_parent (dict_step iter d op) = d_parent d \/ d_parent (dict_step iter d op) = None).
Proof.
  intros N. destruct d as [x m p]. destruct op as [k v|k v| |y]; cbn.
  - destruct k; [destruct (unsupported_key (Some v0))|]; cbn; auto.
  - destruct k as [k|]; cbn; auto. destruct k as [kk kx]. destruct (unsupported_kind kk); cbn; auto.
    destruct p as [p|]; destruct (m_find m _); cbn; auto. destruct (d_get p _); cbn; auto.
  - auto.
  - now elim (N y).
Qed.
Lemma m_set_in m k v x : In x (map fst (m_set m k v)) -> x = k \/ In x (map fst m).
Proof.
  induction m as [|[k' v'] m IH]; cbn; [intuition|]. destruct (value_eqb_spec k' k) as [->|N]; cbn; intuition.
Qed.
Lemma step_sup d op : sup d -> dict_ok d -> (forall x, op <> DDerive x) -> forall k, In k (map fst (d_data (dict_step iter d op))) -> unsupported_key (Some k) = false.
Proof.
  intros S W N. assert (K := sup_data d S). destruct op as [k v|k v| |y].
  - destruct d as [x m p]. cbn [dict_step d_set]. destruct k as [k|]; [|exact K]. destruct (unsupported_key (Some k)) eqn:U; [exact K|].
    cbn [d_data]. intros j I. apply m_set_in in I as [-> | I]; [exact U|exact (K j I)].
  - destruct d as [x m p]. cbn [dict_step d_get_or_assign]. destruct k as [k|]; [|exact K]. destruct (unsupported_key (Some k)) eqn:U; [exact K|].
    destruct p as [p|]; destruct (m_find m k); [exact K| |exact K|].
    + destruct (d_get p k); [exact K|]. cbn. intros j I. apply m_set_in in I as [-> | I]; [exact U|exact (K j I)].
    + cbn. intros j I. apply m_set_in in I as [-> | I]; [exact U|exact (K j I)].
  - cbn. intros k I. assert (X : forall l m, In k (map fst (fold_left (fun m k => m_set m k (@None value)) l m)) -> In k l \/ In k (map fst m)).
    { clear. induction l as [|x l IH]; intros m I; cbn in *; auto. apply IH in I as [I|I]; auto. apply m_set_in in I as [-> | I]; auto. }
    apply X in I as [I|[]]. apply (d_keys_In iter any_order d []) in I; auto.
    unfold f_first in I. cbn in I. rewrite d_get_chain in I. destruct (find_maps (maps (DictProofs.chain d)) k) eqn:E; [|easy].
    eapply find_maps_sup; eauto.
  - now elim (N y).
Qed.
Lemma f_step_ext f g op k : (forall k, f k = g k) -> f_step f op k = f_step g op k.
Proof.
  intros E. destruct op as [k' v|k' v| |y]; cbn; auto.
  - destruct (good_key k'); auto. unfold f_set. now destruct (value_eqb v0 k).
  - destruct (good_key k'); auto. rewrite E. destruct (g v0); auto. unfold f_set. now destruct (value_eqb v0 k).
  - now rewrite E.
Qed.
Lemma edit_dict_ok h a l o op : heap_ok h -> layer_ok h a l -> wf o -> (forall x, op <> DDerive x) ->
  let alloc := allocation_of o in
  let v := get_or_create_dicts l alloc in
  exists d, look_dict ((a, set_dicts l alloc v) :: ups h l) alloc (offset o) = Some d /\
    let l' := set_dicts l alloc (fupd v (offset o) (own_of (dict_step iter d op))) in
    layer_ok h a l' /\
    forall o' k, wf o' -> dict_in ((a, l') :: ups h l) o' k =
      if same_oid o o' then f_step (dict_in ((a, l) :: ups h l) o) op k else dict_in ((a, l) :: ups h l) o' k.
Proof.
  intros H L W Nd alloc v. set (i := offset o).
  set (d := mkDict (N.of_nat a) (od_data (v i)) (if od_cut (v i) then None else on_top (look_dict (ups h l) alloc i))).
  assert (Ed : look_dict ((a, set_dicts l alloc v) :: ups h l) alloc i = Some d).
  { rewrite set_dicts_look. destruct (oid_eq_dec alloc alloc); [reflexivity|congruence]. }
  assert (A : is_allocation alloc) by now apply allocation_of_is_allocation.
  assert (L1 : layer_ok h a (set_dicts l alloc v)).
  { apply set_dicts_ok; auto. intros j. eapply get_or_create_dicts_ok; eauto. }
  assert (Dk : dict_ok d).
  { assert (X := look_dict_ok ((a, set_dicts l alloc v) :: ups h l) alloc i). rewrite Ed in X. apply X.
    intros y ly al w j [E|I] F; [|exact (ups_dicts_ok h a l H L y ly al w j I F)].
    injection E as <- <-. destruct L1 as (_ & _ & _ & _ & Di). exact (proj2 (Di al w F) j). }
  assert (Ds : sup d).
  { assert (X := look_dict_sup ((a, set_dicts l alloc v) :: ups h l) alloc i). rewrite Ed in X. apply X.
    intros y ly al w j [E|I] F; [|exact (ups_dicts_ok h a l H L y ly al w j I F)].
    injection E as <- <-. destruct L1 as (_ & _ & _ & _ & Di). exact (proj2 (Di al w F) j). }
  assert (M : means (dict_step iter d op) (f_step (d_get d) op)).
  { apply dict_step_means; auto. split; auto. }
  destruct (step_shape d op Nd) as [Sa Sp].
  exists d. split; [exact Ed|]. cbn zeta. split.
  - apply set_dicts_ok; auto. intros j. unfold fupd. destruct (j =? i)%N; [|eapply get_or_create_dicts_ok; eauto].
    split; [cbn; apply dict_ok_data; apply M|]. cbn [od_data own_of]. apply step_sup; auto.
  - assert (Gd : forall k, d_get d k = dict_in ((a, l) :: ups h l) o k).
    { intros k. unfold dict_in. fold alloc i. change (d_get d k) with (opt_get (Some d) k). rewrite <- Ed. apply create_dicts_get. }
    intros o' k W'. unfold dict_in at 1. rewrite set_dicts_look.
    destruct (oid_eq_dec alloc (allocation_of o')) as [E|N].
    + unfold fupd. destruct (N.eqb_spec (offset o') i) as [Eo|No].
      * replace (same_oid o o') with true by (symmetry; apply same_oid_spec, oid_by_parts; auto).
        rewrite Eo. rewrite own_of_look.
        -- rewrite (proj2 M). now apply f_step_ext.
        -- rewrite Sa. reflexivity.
        -- destruct Sp as [Sp|Sp]; auto. rewrite Sp. unfold d. cbn. destruct (od_cut (v i)); auto.
      * replace (same_oid o o') with false.
        2:{ symmetry. destruct (same_oid o o') eqn:S; auto. apply same_oid_spec in S. now subst. }
        unfold dict_in. rewrite <- E. change (opt_get (Some (mkDict (N.of_nat a) (od_data (v (offset o'))) (if od_cut (v (offset o')) then None else on_top (look_dict (ups h l) alloc (offset o'))))) k = opt_get (look_dict ((a, l) :: ups h l) alloc (offset o')) k).
        rewrite <- create_dicts_get with (alloc := alloc). rewrite set_dicts_look. destruct (oid_eq_dec alloc alloc); [reflexivity|congruence].
    + replace (same_oid o o') with false; [reflexivity|]. symmetry. destruct (same_oid o o') eqn:S; auto.
      apply same_oid_spec in S. subst. now elim N.
Qed.
End Containers.
