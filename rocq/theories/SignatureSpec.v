(** What the statements about signatures and calls are phrased with: Python's rules for
    the parameters of a function and for the binding of arguments to them. *)
From Coq Require Import String List Bool Arith Permutation.
From Verif Require Import SignatureModel.
Import ListNotations.
Local Open Scope nat_scope.
Local Open Scope list_scope.

Section Spec.
Variable V : Type.
Local Notation param := (param V).

(** The parameter that stands at position i *)
Definition at_ (ps : list param) (i : nat) (p : param) : Prop := nth_error ps i = Some p.

Definition by_position (p : param) : Prop := p_kind p = PositionalOnly \/ p_kind p = PositionalOrKeyword.
Definition by_keyword (p : param) : Prop := p_kind p = PositionalOrKeyword \/ p_kind p = KeywordOnly.
Definition takes_rest (p : param) : Prop := p_kind p = VarPositional \/ p_kind p = VarKeyword.

(** The order of Python's parameter kinds *)
Definition before (a b : kind) : Prop :=
  In (a, b)
    [(PositionalOnly, PositionalOnly); (PositionalOnly, PositionalOrKeyword); (PositionalOnly, VarPositional);
     (PositionalOnly, KeywordOnly); (PositionalOnly, VarKeyword);
     (PositionalOrKeyword, PositionalOrKeyword); (PositionalOrKeyword, VarPositional);
     (PositionalOrKeyword, KeywordOnly); (PositionalOrKeyword, VarKeyword);
     (VarPositional, KeywordOnly); (VarPositional, VarKeyword);
     (KeywordOnly, KeywordOnly); (KeywordOnly, VarKeyword)].

(** A parameter list that Python's inspect.Signature accepts; moreover default values are
    items *)
Definition valid_parameters (ps : list param) : Prop :=
  NoDup (map p_name ps)
  /\ (forall i j p q, i < j -> at_ ps i p -> at_ ps j q -> before (p_kind p) (p_kind q))
  /\ (forall i j p q, i < j -> at_ ps i p -> at_ ps j q -> by_position q ->
      p_default p <> None -> p_default q <> None)
  /\ (forall p rank d, In p ps -> p_default p = Some (rank, d) -> ~ takes_rest p /\ rank = 0).

(** How many parameters can be passed by position *)
Definition positions (ps : list param) : nat :=
  length (filter (fun p => match p_kind p with PositionalOnly | PositionalOrKeyword => true | _ => false end) ps).
(** The name is the name of a parameter that can be passed by keyword *)
Definition known (ps : list param) (n : string) : Prop := exists p, In p ps /\ by_keyword p /\ p_name p = n.

(** The value that the parameter p at position i gets in the call f that passes pos by position and kw by keyword *)
Inductive value_of (use_default : V -> V) (ps : list param) (pos : list V) (kw : list (string * V))
  : nat -> param -> bound V -> Prop :=
| ByPosition i p v : by_position p -> nth_error pos i = Some v -> value_of use_default ps pos kw i p (Plain v)
| ByKeyword i p v : by_keyword p -> (by_position p -> nth_error pos i = None) -> In (p_name p, v) kw ->
    value_of use_default ps pos kw i p (Plain v)
| ByDefault i p rank d : ~ takes_rest p -> (by_position p -> nth_error pos i = None) ->
    (by_keyword p -> ~ In (p_name p) (map fst kw)) -> p_default p = Some (rank, d) ->
    value_of use_default ps pos kw i p (Plain (use_default d))
| RestOfPositions i p : p_kind p = VarPositional ->
    value_of use_default ps pos kw i p (Tuple (skipn (positions ps) pos))
| RestOfKeywords i p rest : p_kind p = VarKeyword ->
    (forall n v, In (n, v) rest <-> In (n, v) kw /\ ~ known ps n) ->
    (exists keep, rest = filter keep kw) ->
    value_of use_default ps pos kw i p (NamedTuple rest).

(** The call f that passes pos by position and kw by keyword binds the parameters to r *)
Definition binds (use_default : V -> V) (ps : list param) (pos : list V) (kw : list (string * V)) (r : list (bound V))
  : Prop :=
  (* a keyword is given once *)
  NoDup (map fst kw)
  (* and not for a parameter that is already given by position *)
  /\ (forall i p, at_ ps i p -> by_position p -> by_keyword p -> i < length pos -> ~ In (p_name p) (map fst kw))
  (* what is left over needs a variadic parameter *)
  /\ ((forall p, In p ps -> p_kind p <> VarPositional) -> length pos <= positions ps)
  /\ ((forall p, In p ps -> p_kind p <> VarKeyword) -> forall n, In n (map fst kw) -> known ps n)
  (* every parameter gets its value *)
  /\ length r = length ps
  /\ (forall i p, at_ ps i p -> exists v, nth_error r i = Some v /\ value_of use_default ps pos kw i p v).

End Spec.
Arguments at_ {V} ps i p.
Arguments by_position {V} p.
Arguments by_keyword {V} p.
Arguments takes_rest {V} p.
Arguments valid_parameters {V} ps.
Arguments positions {V} ps.
Arguments known {V} ps n.
Arguments value_of {V} use_default ps pos kw i p _.
Arguments binds {V} use_default ps pos kw r.

(** What the caller is told when the call is refused is the case *)
Definition complaint_holds {V} (ps : list (param V)) (pos : list V) (kw : list (string * V)) (e : sig_error) : Prop :=
  match e with
  | ETwice n => known ps n /\
      ((exists i p, at_ ps i p /\ p_name p = n /\ by_position p /\ i < length pos /\ In n (map fst kw))
       \/ 2 <= count_occ string_dec (map fst kw) n)
  | EField n => ~ known ps n /\ (exists p, In p ps /\ p_kind p = VarKeyword) /\ 2 <= count_occ string_dec (map fst kw) n
  | ETooMany k => (forall p, In p ps -> p_kind p <> VarPositional) /\ length pos = positions ps + k /\ 0 < k
  | EUnknown names => (forall p, In p ps -> p_kind p <> VarKeyword) /\ names <> [] /\
      forall n, In n names <-> In n (map fst kw) /\ ~ known ps n
  | ENoValue n => exists i p, at_ ps i p /\ p_name p = n /\ p_default p = None /\ ~ takes_rest p /\
      (by_position p -> length pos <= i) /\ (by_keyword p -> ~ In n (map fst kw))
  | _ => False
  end.

(** Two calls bind the same, up to the order of the fields of a named tuple *)
Inductive same_bound {V} : bound V -> bound V -> Prop :=
| SamePlain v : same_bound (Plain v) (Plain v)
| SameTuple l : same_bound (Tuple l) (Tuple l)
| SameNamed l l' : Permutation l l' -> same_bound (NamedTuple l) (NamedTuple l').
