(** Properties C35, C37, C38, C39: the JSON stream operators. *)
From Coq Require Import String NArith ZArith List Bool Lia.
From Verif Require Import JsonModel JsonSpec JsonChunkProofs JsonPrettyProofs JsonStringProofs
  JsonLineProofs JsonExtractProofs.
Import ListNotations.
Open Scope N_scope.

(** ** C35: how the text is cut into chunks (and where items are missing) does
    not matter. (Salvage: see SalvageProps.v.) *)
Theorem C35_chunking_does_not_matter : forall o items1 items2,
  given items1 = given items2 ->
  concat (run (op_proc o) items1) = concat (run (op_proc o) items2).
Proof. exact chunk_independent. Qed.
Print Assumptions C35_chunking_does_not_matter.

(** chunk_values: not even the chunks of the output depend on it. *)
Theorem C35_chunk_values_same_chunks : forall items1 items2,
  given items1 = given items2 ->
  run (op_proc OpChunkValues) items1 = run (op_proc OpChunkValues) items2.
Proof. exact chunk_values_same. Qed.
Print Assumptions C35_chunk_values_same_chunks.

Example C35_hypotheses_met :
  given [Some (lit "{""a"": ""\"); None; Some (lit """}")] = given (map (fun c => Some [c]) (lit "{""a"": ""\""}")) /\
  concat (run (op_proc (OpPrettify (lit "  "))) [Some (lit "[1,"); None; Some (lit "2]")]) =
    lit "[" ++ [10] ++ lit "  1," ++ [10] ++ lit "  2" ++ [10] ++ lit "]".
Proof. split; reflexivity. Qed.

(** ** C37: quoting *)
Theorem C37_unquote_after_quote : forall items,
  concat (run (op_proc OpUnquote) (map Some (run (op_proc OpQuote) items))) = given items.
Proof. exact run_unquote_quote. Qed.
Print Assumptions C37_unquote_after_quote.

(** The quotation is one string literal, without control characters, that
    stands for the text. *)
Theorem C37_quote_is_one_literal : forall items,
  exists b, concat (run (op_proc OpQuote) items) = quoted b /\
  body_ok b = true /\ Forall (fun c => 32 <= c) b /\ denotes b (given items).
Proof. exact run_quote. Qed.
Print Assumptions C37_quote_is_one_literal.

(** Reading such a literal, the string is open after every proper prefix: the
    only unescaped quotes are the first and the last character. *)
Theorem C37_literal_closes_only_at_its_end : forall b, body_ok b = true ->
  forall p q, quoted b = p ++ q -> p <> [] -> q <> [] -> fst (scan (false, false) p) = true.
Proof. exact quote_closes. Qed.
Print Assumptions C37_literal_closes_only_at_its_end.

(** Any literal is unquoted to the string that it denotes, whatever stands
    around it. *)
Theorem C37_unquote_reads_literals : forall items pre b post s,
  given items = pre ++ quoted b ++ post ->
  ~ In cQuote pre -> ~ In cQuote post -> denotes b s ->
  concat (run (op_proc OpUnquote) items) = s.
Proof. exact run_unquote. Qed.
Print Assumptions C37_unquote_reads_literals.

Example C37_hypotheses_met :
  denotes (lit "\ud83d\ude00\n\u00e9") [0xF0; 0x9F; 0x98; 0x80; 10; 0xC3; 0xA9] /\
  concat (run (op_proc OpUnquote) [Some (lit """\ud83d\ude"); Some (lit "00\n\u00e9""")]) =
    [0xF0; 0x9F; 0x98; 0x80; 10; 0xC3; 0xA9].
Proof.
  split; [|reflexivity].
  change [0xF0; 0x9F; 0x98; 0x80; 10; 0xC3; 0xA9] with ([0xF0 + 0; 0x80 + 31; 0x80 + 24; 0x80 + 0] ++ 10 :: [0xC0 + 3; 0x80 + 41] ++ []).
  apply (den_uu 100 56 51 100 0xD83D 100 101 48 48 0xDE00).
  - exists 13, 8, 3, 13. unfold hex_digit. repeat split; lia.
  - lia.
  - exists 13, 14, 0, 0. unfold hex_digit. repeat split; lia.
  - lia.
  - apply (u8_4 0 31 24 0); lia.
  - apply (den_esc 110 10); [reflexivity|]. apply (den_u 48 48 101 57 0xE9).
    + exists 0, 0, 14, 9. unfold hex_digit. repeat split; lia.
    + lia.
    + apply (u8_2 3 41); lia.
    + constructor.
Qed.

(** ** C38: whitespace *)

(** For every text whose strings are closed, compactify keeps every character
    except whitespace outside strings... *)
Theorem C38_compactify_keeps_significant : forall items, strings_closed (given items) ->
  significant (concat (run compact_proc items)) = significant (given items).
Proof. exact run_compact_significant. Qed.
Print Assumptions C38_compactify_keeps_significant.

(** ... and so does prettify, for every text whatsoever. *)
Theorem C38_prettify_keeps_significant : forall ind items, forallb is_ws ind = true ->
  significant (concat (run (op_proc (OpPrettify ind)) items)) = significant (given items).
Proof. exact run_pretty_significant. Qed.
Print Assumptions C38_prettify_keeps_significant.

Theorem C38_compactify_idempotent : forall items, strings_closed (given items) ->
  concat (run compact_proc (map Some (run compact_proc items))) = concat (run compact_proc items).
Proof. exact run_compact_idem. Qed.
Print Assumptions C38_compactify_idempotent.

(** An unterminated string gets a newline inside it, so the condition is needed. *)
Theorem C38_unterminated_string_refuted : exists items,
  concat (run compact_proc (map Some (run compact_proc items))) <> concat (run compact_proc items) /\
  significant (concat (run compact_proc items)) <> significant (given items).
Proof. exists [Some (lit """a")]. vm_compute. split; discriminate. Qed.
Print Assumptions C38_unterminated_string_refuted.

(** A stream of JSON values is compacted to one line per value; chunk_values
    gives one chunk per value. *)
Theorem C38_compactify_values : forall js items, json_text js (given items) ->
  concat (run compact_proc items) = lines js.
Proof. exact run_compact_json. Qed.
Print Assumptions C38_compactify_values.

Theorem C38_chunk_values : forall js items, json_text js (given items) ->
  run (op_proc OpChunkValues) items = map (fun j => compact j ++ [cNewline]) js.
Proof. exact chunk_values_run. Qed.
Print Assumptions C38_chunk_values.

(** prettify prints each value as json.dumps(indent=...) does, one newline
    between two values (and one in front if the text starts with whitespace). *)
Theorem C38_prettify_values : forall ind js w s items,
  forallb is_ws w = true -> spells js s -> given items = w ++ s ->
  concat (run (op_proc (OpPrettify ind)) items) =
  (match w, js with [], _ | _, [] => [] | _, _ => [cNewline] end) ++
  intercalate [cNewline] (map (pretty ind 0) js).
Proof. exact run_pretty_json. Qed.
Print Assumptions C38_prettify_values.

Theorem C38_compactify_after_prettify : forall ind js items,
  forallb is_ws ind = true -> json_text js (given items) ->
  concat (run compact_proc (map Some (run (op_proc (OpPrettify ind)) items))) =
  concat (run compact_proc items).
Proof. exact compact_after_pretty. Qed.
Print Assumptions C38_compactify_after_prettify.

Definition ex_value : json :=
  JArr [JNum (lit "1"); JObj [(lit "a b", JStr (lit "x\""y")); (lit "c", JArr [])]; JNull].
Definition ex_text : bytes := lit " [ 1, {""a b"" :""x\""y"",""c"":[ ]}, null] ".

Example C38_hypotheses_met : json_text [ex_value; JTrue] (given [Some ex_text; Some (lit " true")]) /\
  strings_closed ex_text.
Proof.
  split; [|reflexivity].
  exists (lit " "), (lit "[ 1, {""a b"" :""x\""y"",""c"":[ ]}, null]  true").
  split; [reflexivity|]. split; [|reflexivity].
  change (lit "[ 1, {""a b"" :""x\""y"",""c"":[ ]}, null]  true")
    with (lit "[ 1, {""a b"" :""x\""y"",""c"":[ ]}, null]  " ++ lit "true").
  apply spells_cons; [reflexivity| |exists (lit "[ 1, {""a b"" :""x\""y"",""c"":[ ]}, null] "), 32; split; reflexivity|].
  - apply (spell_cons (lit "[") _ (lit " ")); [reflexivity|].
    apply (spell_cons (lit "1") _ []); [reflexivity|].
    apply (spell_cons (lit ",") _ (lit " ")); [reflexivity|].
    apply (spell_cons (lit "{") _ []); [reflexivity|].
    apply (spell_cons (lit """a b""") _ (lit " ")); [reflexivity|].
    apply (spell_cons (lit ":") _ []); [reflexivity|].
    apply (spell_cons (lit """x\""y""") _ []); [reflexivity|].
    apply (spell_cons (lit ",") _ []); [reflexivity|].
    apply (spell_cons (lit """c""") _ []); [reflexivity|].
    apply (spell_cons (lit ":") _ []); [reflexivity|].
    apply (spell_cons (lit "[") _ (lit " ")); [reflexivity|].
    apply (spell_cons (lit "]") _ []); [reflexivity|].
    apply (spell_cons (lit "}") _ []); [reflexivity|].
    apply (spell_cons (lit ",") _ (lit " ")); [reflexivity|].
    apply (spell_cons (lit "null") _ []); [reflexivity|].
    apply (spell_cons (lit "]") _ (lit "  ")); [reflexivity|]. constructor.
  - apply spells_last; [reflexivity|]. apply (spell_cons (lit "true") _ []); [reflexivity|constructor].
Qed.

(** ** C39: line-oriented operators *)
Theorem C39_head : forall n js items, json_text js (given items) ->
  concat (run (op_proc (OpHead n)) items) = lines (firstn (Z.to_nat n) js).
Proof. exact run_head. Qed.
Print Assumptions C39_head.

Theorem C39_select_nonempty_objects : forall js items, json_text js (given items) ->
  concat (run (op_proc OpSelectNonemptyObjects) items) = lines (filter nonempty_object js).
Proof. exact run_select_objects. Qed.
Print Assumptions C39_select_nonempty_objects.

Theorem C39_select_nonempty_arrays : forall js items, json_text js (given items) ->
  concat (run (op_proc OpSelectNonemptyArrays) items) = lines (filter nonempty_array js).
Proof. exact run_select_arrays. Qed.
Print Assumptions C39_select_nonempty_arrays.

Theorem C39_select_nonnull : forall js items, json_text js (given items) ->
  concat (run (op_proc OpSelectNonnull) items) = lines (filter nonnull js).
Proof. exact run_select_nonnull. Qed.
Print Assumptions C39_select_nonnull.

Theorem C39_implode : forall js items, json_text js (given items) ->
  concat (run (op_proc OpImplodeArray) items) = lines [JArr js].
Proof. exact run_implode. Qed.
Print Assumptions C39_implode.

Theorem C39_explode : forall js items, json_text js (given items) ->
  concat (run (op_proc OpExplodeArray) items) = lines (flat_map elements js).
Proof. exact run_explode. Qed.
Print Assumptions C39_explode.

Theorem C39_explode_after_implode : forall js items, json_text js (given items) ->
  concat (run (op_proc OpExplodeArray) (map Some (run (op_proc OpImplodeArray) items))) = lines js.
Proof. exact run_explode_implode. Qed.
Print Assumptions C39_explode_after_implode.

Theorem C39_implode_after_explode : forall l items, json_text [JArr l] (given items) ->
  concat (run (op_proc OpImplodeArray) (map Some (run (op_proc OpExplodeArray) items))) = lines [JArr l].
Proof. exact run_implode_explode. Qed.
Print Assumptions C39_implode_after_explode.

(** The n-th element, or null; streams of arrays and objects. *)
Theorem C39_nth_value : forall n js items,
  (0 <= n)%Z -> forallb is_container js = true -> json_text js (given items) ->
  concat (run (op_proc (OpGetArrayNthValue n)) items) = lines (map (nth_or_null n) js).
Proof. exact run_nth. Qed.
Print Assumptions C39_nth_value.

(** Not so for streams with top-level scalars: "1 2" gives one null instead of
    two, and the null owed to an array behind a scalar is lost ... *)
Theorem C39_nth_value_scalars_refuted : exists js items,
  json_text js (given items) /\
  concat (run (op_proc (OpGetArrayNthValue 0)) items) <> lines (map (nth_or_null 0) js).
Proof.
  exists [JNum (lit "1"); JNum (lit "2")], [Some (lit "1 2")]. split.
  - exists [], (lit "1 2"). split; [reflexivity|]. split; [|reflexivity].
    change (lit "1 2") with (lit "1 " ++ lit "2"). apply spells_cons; [reflexivity| |exists (lit "1"), 32; split; reflexivity|].
    + apply (spell_cons (lit "1") _ (lit " ")); [reflexivity|constructor].
    + apply spells_last; [reflexivity|]. apply (spell_cons (lit "2") _ []); [reflexivity|constructor].
  - vm_compute. discriminate.
Qed.
Print Assumptions C39_nth_value_scalars_refuted.

(** ... nor for negative n, where an array gives nothing at all. *)
Theorem C39_nth_value_negative_refuted :
  concat (run (op_proc (OpGetArrayNthValue (-1))) [Some (lit "[1]")]) = [].
Proof. reflexivity. Qed.
Print Assumptions C39_nth_value_negative_refuted.

(** The values of a key, for values without an empty object in them. *)
Theorem C39_object_key_values : forall key js vss items,
  json_text js (given items) -> Forall2 (values_at key) js vss ->
  forallb no_empty_object js = true ->
  concat (run (op_proc (OpGetObjectKeyValues key)) items) = lines (map JArr vss).
Proof. exact run_key_values. Qed.
Print Assumptions C39_object_key_values.

Theorem C39_object_key_value : forall key js vss items,
  json_text js (given items) -> Forall2 (values_at key) js vss ->
  forallb no_empty_object js = true ->
  concat (run (op_proc (OpGetObjectKeyValue key)) items) = lines (map (fun vs => hd JNull vs) vss).
Proof. exact run_key_value. Qed.
Print Assumptions C39_object_key_value.

(** An empty object makes a later string in the same array count as (part of)
    a key: the value of "k" is not found. *)
Theorem C39_object_key_after_empty_object_refuted :
  concat (run (op_proc (OpGetObjectKeyValue (lit "k"))) [Some (lit "{""a"":[{},""x""],""k"":1}")]) =
    lit "null" ++ [cNewline] /\
  values_at (lit "k") (JObj [(lit "a", JArr [JObj []; JStr (lit "x")]); (lit "k", JNum (lit "1"))]) [JNum (lit "1")].
Proof.
  split; [reflexivity|]. constructor. apply (pa_miss _ _ (lit "a")); [|discriminate|].
  - apply den_raw; try discriminate. constructor.
  - apply pa_hit; [|constructor]. apply den_raw; try discriminate. constructor.
Qed.
Print Assumptions C39_object_key_after_empty_object_refuted.

Example C39_hypotheses_met :
  Forall2 (values_at (lit "k"))
    [JObj [(lit "a", JNull); (lit "\u006b", JArr [JTrue]); (lit "k", JNum (lit "2"))]; JArr [JNull]]
    [[JArr [JTrue]; JNum (lit "2")]; []] /\
  concat (run (op_proc (OpGetObjectKeyValues (lit "k"))) [Some (lit "{""a"":null, ""\u006b"":[true],""k"": 2} [null]")]) =
    lines [JArr [JArr [JTrue]; JNum (lit "2")]; JArr []].
Proof.
  split; [|reflexivity]. constructor; [|constructor; [|constructor]].
  - constructor. apply (pa_miss _ _ (lit "a")); [|discriminate|].
    + apply den_raw; try discriminate. constructor.
    + apply pa_hit.
      * change (lit "k") with ([107] ++ []). apply (den_u 48 48 54 98 107).
        -- exists 0, 0, 6, 11. unfold hex_digit. repeat split; lia.
        -- lia.
        -- apply (u8_1 107). lia.
        -- constructor.
      * apply pa_hit; [|constructor]. apply den_raw; try discriminate. constructor.
  - constructor. discriminate.
Qed.
