(** Reading attributes of objects whose allocations are not known. *)
From Coq Require Import List Bool.
From Verif Require Import ObjectIdModel ItemModel BagModel.
Import ListNotations.

Lemma no_ids_no_values : forall h attr objs bags with_removed,
  get_attrs h attr [] false objs bags with_removed = map (fun _ => None) objs.
Proof.
  intros h attr objs bags w. unfold get_attrs.
  assert (M : many [] objs = false) by reflexivity.
  assert (L : forall bags b, get_attr_loop h attr [] false objs bags b = inr b).
  { induction bags0 as [|a r IH]; intros b; auto. cbn [get_attr_loop]. rewrite M. cbn. apply IH. }
  rewrite L, M, orb_false_r. destruct w; auto. unfold built, new_builder. rewrite map_map. apply map_ext.
  intros [o|]; reflexivity.
Qed.
