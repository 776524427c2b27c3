(** What adopting has to give: the union of what was added, if no two parts of it disagree. *)
From Coq Require Import List Bool Arith.
From Verif Require Import AdoptModel.
Import ListNotations.

Section Spec.
Variables (key val bag slice error : Type).
Variable key_eqb : key -> key -> bool.
Variable contents_of : bag -> contents key val.
Variable bag_of : slice -> option bag.
Variable extract : slice -> option (contents key val) + error.
Notation lookup := (lookup key_eqb).

(** The bags of what was added, other than null *)
Definition added_bag (adds : list (add bag slice)) (b : bag) : Prop := In (Add_bag (Some b)) adds.
Definition added_slice (adds : list (add bag slice)) (s : slice) (b : bag) : Prop := In (Add_slice s) adds /\ bag_of s = Some b.
Definition tracked (adds : list (add bag slice)) (b : bag) : Prop := added_bag adds b \/ exists s, added_slice adds s b.
(** A slice is extracted unless its bag is adopted as a whole, or into itself *)
Definition extracted (into : option bag) (adds : list (add bag slice)) (s : slice) : Prop :=
  exists b, added_slice adds s b /\ ~ added_bag adds b /\ into <> Some b.
(** The parts: the bag that is adopted into, whole bags, what slices reach *)
Definition part (into : option bag) (adds : list (add bag slice)) (c : contents key val) : Prop :=
  (exists b, into = Some b /\ c = contents_of b) \/
  (exists b, added_bag adds b /\ c = contents_of b) \/
  (exists s, extracted into adds s /\ extract s = inl (Some c)).
(** No key has two values *)
Definition agree (c1 c2 : contents key val) : Prop :=
  forall k v w, lookup c1 k = Some v -> lookup c2 k = Some w -> v = w.
Definition adoptable (into : option bag) (adds : list (add bag slice)) : Prop :=
  (forall c1 c2, part into adds c1 -> part into adds c2 -> agree c1 c2) /\
  (forall s, extracted into adds s -> forall e, extract s <> inr e).
(** c has what the parts have, and nothing else *)
Definition union (into : option bag) (adds : list (add bag slice)) (c : contents key val) : Prop :=
  forall k v, lookup c k = Some v <-> exists c', part into adds c' /\ lookup c' k = Some v.
(** What is asked for: all of the added bags, and all that the added slices reach *)
Definition wanted (adds : list (add bag slice)) (k : key) (v : val) : Prop :=
  (exists b, added_bag adds b /\ lookup (contents_of b) k = Some v) \/
  (exists s c, In (Add_slice s) adds /\ bag_of s <> None /\ extract s = inl (Some c) /\ lookup c k = Some v).
(** The bags in their order: first those added, then those of the slices *)
Definition bags_added (adds : list (add bag slice)) : list bag :=
  flat_map (fun a => match a with Add_bag (Some b) => [b] | _ => [] end) adds.
Definition bags_of_slices (adds : list (add bag slice)) : list bag :=
  flat_map (fun a => match a with Add_slice s => match bag_of s with Some b => [b] | None => [] end | _ => [] end) adds.
(** b is the first bag of the list that has the key *)
Definition first_with (l : list bag) (k : key) (b : bag) : Prop :=
  exists l1 l2, l = l1 ++ b :: l2 /\ lookup (contents_of b) k <> None /\ forall a, In a l1 -> lookup (contents_of a) k = None.
End Spec.
Arguments added_bag {bag slice} adds b.
Arguments added_slice {bag slice} bag_of adds s b.
Arguments tracked {bag slice} bag_of adds b.
Arguments extracted {bag slice} bag_of into adds s.
Arguments part {key val bag slice error} contents_of bag_of extract into adds c.
Arguments agree {key val} key_eqb c1 c2.
Arguments adoptable {key val bag slice error} key_eqb contents_of bag_of extract into adds.
Arguments union {key val bag slice error} key_eqb contents_of bag_of extract into adds c.
Arguments wanted {key val bag slice error} key_eqb contents_of bag_of extract adds k v.
Arguments bags_added {bag slice} adds.
Arguments bags_of_slices {bag slice} bag_of adds.
Arguments first_with {key val bag} key_eqb contents_of l k b.
