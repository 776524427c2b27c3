(** C26 and C27: data slice paths. *)
From Coq Require Import String.
From Coq Require Import NArith ZArith List Bool.
From Verif Require Import PathModel PathCodecModel PathSpec PathProofs
  PathGenProofs PathCodecProofs.
Import ListNotations.
Local Open Scope string_scope.
Local Open Scope list_scope.
Local Open Scope nat_scope.

(** * C26: printing and parsing *)

(** Parsing the text of a path gives back the path, for all attribute names. *)
Theorem C26_print_then_parse : forall lx p s,
  codec_ok lx -> to_string lx p = Some s -> parse_from_string lx s = Parsed p.
Proof. exact round_trip. Qed.

(** The parser accepts exactly the documented texts, with the documented
    meaning. *)
Theorem C26_parser_accepts_the_grammar : forall lx s p,
  codec_ok lx -> (parse_from_string lx s = Parsed p <-> denotes lx s p).
Proof. exact parse_iff. Qed.

(** No text denotes two paths. *)
Theorem C26_grammar_is_unambiguous : forall lx s p q,
  codec_ok lx -> denotes lx s p -> denotes lx s q -> p = q.
Proof. exact denotes_unique. Qed.

(** Every other text is refused with an error; parsing always ends. *)
Theorem C26_other_texts_are_refused : forall lx s,
  codec_ok lx ->
  ((exists e, parse_from_string lx s = ParseError e)
   <-> (forall p, ~ denotes lx s p)).
Proof. exact parse_error_iff. Qed.
Theorem C26_parsing_ends : forall lx s, parse_from_string lx s <> Unfinished.
Proof. exact parse_finishes. Qed.

(** A path has a text unless a name cannot be encoded; the codec that the code
    uses satisfies the assumption made above and encodes all Unicode text. *)
Theorem C26_printing_succeeds : forall lx p,
  to_string lx p <> None <-> Forall (printable lx) p.
Proof. exact to_string_defined. Qed.
Theorem C26_codec : forall start continue, codec_ok (koda_lexicon start continue).
Proof. exact koda_codec_ok. Qed.
Theorem C26_codec_encodes_unicode : forall s,
  encode_name s <> None <->
  Forall (fun c => (c < 0x110000)%N /\ ~ (0xD800 <= c <= 0xDFFF)%N) s.
Proof. exact encode_defined. Qed.

(** Names are decoded from texts of base64 characters whose number does not
    leave 1 modulo 4, with complete padding or none; white space does not
    matter. *)
Theorem C26_base64_texts : forall s,
  base64_unescape s <> None <->
  exists t pads,
    filter (fun c => negb (is_space c)) s = t ++ pads
    /\ Forall (fun c => char_sextet c <> None) t /\ Forall (fun c => is_pad c = true) pads
    /\ length t mod 4 <> 1
    /\ (pads = [] \/ (length pads <= 2 /\ (length t + length pads) mod 4 = 0)).
Proof. exact base64_texts. Qed.

(** An attribute whose name is an ASCII identifier is printed with a dot, any
    other ASCII name in quotes. *)
Theorem C26_ascii_names : forall lx c s,
  Forall (fun d => (d < 128)%N) (c :: s) ->
  let letters := str "ABCDEFGHIJKLMNOPQRSTUVWXYZabcdefghijklmnopqrstuvwxyz_" in
  let plain := In c letters /\ Forall (fun d => In d (letters ++ str "0123456789")) s in
  (plain -> action_text lx (GetAttr (c :: s)) = Some (str "." ++ c :: s))
  /\ (~ plain -> action_text lx (GetAttr (c :: s))
                = match encode lx (c :: s) with
                  | Some b => Some (str ".get_attr(" ++ [34%N] ++ b ++ [34%N; 41%N])
                  | None => None
                  end).
Proof. exact ascii_names. Qed.

(** * C27: algebra of paths *)

Theorem C27_concat_is_a_monoid : forall p q r : path,
  concat_paths (concat_paths p q) r = concat_paths p (concat_paths q r)
  /\ concat_paths [] p = p /\ concat_paths p [] = p
  /\ depth (concat_paths p q) = depth p + depth q.
Proof.
  intros p q r.
  exact (conj (eq_sym (app_assoc p q r))
          (conj eq_refl (conj (app_nil_r p) (app_length p q)))).
Qed.

Theorem C27_extending : forall p a q b,
  extended_with_action p a = concat_paths p [a]
  /\ (extended_with_action p a = extended_with_action q b -> p = q /\ a = b).
Proof. exact (fun p a q b => conj eq_refl (@app_inj_tail _ p q a b)). Qed.

(** The text of a concatenation is the concatenation of the texts, and a text
    made of two accepted texts denotes the concatenation. *)
Theorem C27_text_of_concat : forall lx p q s t,
  to_string lx p = Some s -> to_string lx q = Some t ->
  to_string lx (concat_paths p q) = Some (s ++ t).
Proof. exact to_string_app. Qed.
Theorem C27_parse_concat : forall lx s t p q,
  codec_ok lx ->
  parse_from_string lx s = Parsed p -> parse_from_string lx t = Parsed q ->
  parse_from_string lx (s ++ t) = Parsed (concat_paths p q).
Proof. exact parse_app. Qed.

(** Different paths never print alike. *)
Theorem C27_printing_is_injective : forall lx p q s,
  codec_ok lx -> to_string lx p = Some s -> to_string lx q = Some s -> p = q.
Proof. exact to_string_injective. Qed.

(** The empty path evaluates to the slice itself, a path of one action does this
    action, and evaluating a concatenation is evaluating one path after the
    other. *)
Theorem C27_evaluate_concat :
  forall (Slice : Type) (ev : action -> Slice -> option Slice) x,
  evaluate ev [] x = Some x
  /\ (forall a, evaluate ev [a] x = ev a x)
  /\ (forall p q, evaluate ev (concat_paths p q) x
                  = match evaluate ev p x with Some y => evaluate ev q y | None => None end).
Proof. exact @evaluate_steps. Qed.

(** Views: the parent of a child is the view itself, and going up by the length
    of what was appended gives back the path, if it (still) exists. *)
Theorem C27_parent_of_child : forall ex p a q,
  get_child ex p a = View q -> get_parent ex q = View p.
Proof. exact get_parent_child. Qed.
Theorem C27_ancestor_of_concat : forall ex p q,
  q <> [] ->
  get_ancestor ex (concat_paths p q) (Z.of_nat (depth q))
  = (if ex p then View p else ViewError).
Proof. exact get_ancestor_concat. Qed.
Theorem C27_grandparent : forall ex p a b,
  get_grandparent ex (extended_with_action (extended_with_action p a) b)
  = (if ex p then View p else ViewError).
Proof. exact get_grandparent_extended. Qed.
Theorem C27_no_ancestor : forall ex p n,
  (n < 0 \/ Z.of_nat (depth p) < n)%Z -> get_ancestor ex p n = ViewError.
Proof. exact get_ancestor_errors. Qed.

(** The paths generated for a schema, in any number of rounds of the generator:
    each valid path of a depth below that number and within the given limit
    exactly once, shorter ones first; the generator ends exactly when there are
    no more. *)
Theorem C27_generate_paths : forall b x max_depth rounds,
  schema_bag_ok b ->
  let out := fst (generate_paths b x max_depth rounds) in
  let done := snd (generate_paths b x max_depth rounds) in
  NoDup out /\ by_depth out
  /\ (forall p, In p out <->
        valid_path b x p /\ depth p < rounds
        /\ (max_depth = -1 \/ Z.of_nat (depth p) <= max_depth)%Z)
  /\ (done = true <->
        forall p, valid_path b x p ->
          (max_depth = -1 \/ Z.of_nat (depth p) <= max_depth)%Z ->
          depth p < rounds).
Proof. exact generate_paths_ok. Qed.

(** The walk along a path finds the schema that the path leads to, and fails if
    there is none. *)
Theorem C27_schema_at_path : forall b x p y,
  schema_bag_ok b -> (schema_at b x p = Some y <-> leads b x p y).
Proof. exact schema_at_leads. Qed.

(** Descendants of a view: its proper extensions that are valid and satisfy the
    predicate, each once, shorter ones first, and never an error. *)
Theorem C27_find_descendants : forall ex b root pred max_delta_depth rounds p x,
  schema_bag_ok b ->
  (forall q, ex q = true <-> valid_path b root q) ->
  leads b root p x ->
  exists qs,
    find_descendants ex b x pred max_delta_depth rounds p
    = map (fun q => View (concat_paths p q)) qs
    /\ NoDup qs /\ by_depth qs
    /\ (forall q, In q qs <->
          q <> [] /\ valid_path b root (concat_paths p q)
          /\ pred (concat_paths p q) = true
          /\ depth q < rounds
          /\ (max_delta_depth = -1 \/ Z.of_nat (depth q) <= max_delta_depth)%Z).
Proof. exact find_descendants_ok. Qed.

(** * The hypotheses are met *)

Definition lx0 : lexicon := koda_lexicon (fun c => N.eqb c 233) (fun c => N.eqb c 233).

(** A path with attributes that look like other actions. *)
Definition tricky : path :=
  [GetAttr (str "get_keys"); DictGetKeys; GetAttr (str "get_keys()"); ListExplode;
   GetAttr (str "a.b[:]'"); GetAttr []; GetAttr [233%N]; GetAttr [8364%N; 128512%N];
   DictGetValues].

Example C26_hypotheses_met :
  codec_ok lx0
  /\ (exists s, to_string lx0 tricky = Some s /\ parse_from_string lx0 s = Parsed tricky)
  /\ to_string lx0 [GetAttr (str "a.b")] = Some (str ".get_attr(" ++ [34%N] ++ str "YS5i" ++ [34%N] ++ str ")")
  /\ parse_from_string lx0 (str ".get_attr('YS5i')[:].get_keys.get_keys()")
     = Parsed [GetAttr (str "a.b"); ListExplode; GetAttr (str "get_keys"); DictGetKeys]
  /\ parse_from_string lx0 (str ".a[1]") = ParseError InvalidName
  /\ parse_from_string lx0 (str ".get_attr(YS5i)") = ParseError NotQuoted
  /\ parse_from_string lx0 (str ".get_attr('Y')") = ParseError NotBase64
  /\ parse_from_string lx0 (str "a") = ParseError NoValidPrefix
  /\ parse_from_string lx0 (str "..a") = ParseError EmptyName
  /\ to_string lx0 [GetAttr [0xD800%N]] = None.
Proof.
  split; [apply koda_codec_ok|]. split; [eexists; split; [vm_compute; reflexivity|vm_compute; reflexivity]|].
  vm_compute. repeat split.
Qed.

(** A recursive schema: a tree whose nodes have a value, a list of children and
    a dict of names. *)
Definition tree_bag : schema_bag :=
  [(str "tree", NEntity [(str "children", SNode (str "list"));
                         (str "names", SNode (str "dict"));
                         (str "value", SPrimitive (str "INT32"))]);
   (str "list", NList (SNode (str "tree")));
   (str "dict", NDict (SPrimitive (str "STRING")) (SNode (str "tree")))].

Lemma tree_bag_ok : schema_bag_ok tree_bag.
Proof.
  intros id attrs. unfold tree_bag. cbn [lookup].
  destruct (text_eqb (str "tree") id).
  - intros E; injection E as <-. cbn.
    repeat (constructor; [cbn; intuition discriminate|]). constructor.
  - destruct (text_eqb (str "list") id); [discriminate|].
    destruct (text_eqb (str "dict") id); [discriminate|].
    intros E; injection E as <-. constructor.
Qed.

Example C27_hypotheses_met :
  schema_bag_ok tree_bag
  /\ generate_paths tree_bag (SNode (str "tree")) 2 5
     = ([[]; [GetAttr (str "children")]; [GetAttr (str "names")]; [GetAttr (str "value")];
         [GetAttr (str "children"); ListExplode];
         [GetAttr (str "names"); DictGetKeys]; [GetAttr (str "names"); DictGetValues]], true)
  /\ generate_paths tree_bag (SNode (str "tree")) (-1) 1 = ([[]], false)
  /\ schema_at tree_bag (SNode (str "tree")) [GetAttr (str "names"); DictGetValues; GetAttr (str "value")]
     = Some (SPrimitive (str "INT32"))
  /\ find_descendants
       (fun q => match schema_at tree_bag (SNode (str "tree")) q with Some _ => true | None => false end)
       tree_bag (SNode (str "dict")) (fun _ => true) 1 9 [GetAttr (str "names")]
     = [View [GetAttr (str "names"); DictGetKeys]; View [GetAttr (str "names"); DictGetValues]]
  /\ get_child (fun q => match schema_at tree_bag (SNode (str "tree")) q with Some _ => true | None => false end)
       [GetAttr (str "names")] DictGetKeys = View [GetAttr (str "names"); DictGetKeys].
Proof. split; [exact tree_bag_ok|]. vm_compute. repeat split. Qed.

Print Assumptions C26_print_then_parse.
Print Assumptions C26_parser_accepts_the_grammar.
Print Assumptions C26_grammar_is_unambiguous.
Print Assumptions C26_other_texts_are_refused.
Print Assumptions C26_parsing_ends.
Print Assumptions C26_printing_succeeds.
Print Assumptions C26_codec.
Print Assumptions C26_base64_texts.
Print Assumptions C26_codec_encodes_unicode.
Print Assumptions C26_ascii_names.
Print Assumptions C27_concat_is_a_monoid.
Print Assumptions C27_extending.
Print Assumptions C27_text_of_concat.
Print Assumptions C27_parse_concat.
Print Assumptions C27_printing_is_injective.
Print Assumptions C27_evaluate_concat.
Print Assumptions C27_parent_of_child.
Print Assumptions C27_ancestor_of_concat.
Print Assumptions C27_grandparent.
Print Assumptions C27_no_ancestor.
Print Assumptions C27_generate_paths.
Print Assumptions C27_schema_at_path.
Print Assumptions C27_find_descendants.
