(** * Basic notions shared by all model files: Go panics and Go error values. *)
From stdpp Require Export prelude strings.
From Coq Require Export String Ascii ZArith.
(* stdpp and String both export names; lists win for [length] and [++]. *)
Notation length := List.length.
Notation concat := List.concat.
Open Scope string_scope.
Open Scope list_scope.

(** The result of running a Go function: it returns, or it panics.  A function
    returning [(x, err)] is modelled by [Ok (x, err)]. *)
Inductive Outcome (A : Type) : Type :=
| Ok (a : A)
| Panic.
Arguments Ok {A} a.
Arguments Panic {A}.

Definition obind {A B} (o : Outcome A) (f : A → Outcome B) : Outcome B :=
  match o with Ok a => f a | Panic => Panic end.

Definition is_ok {A} (o : Outcome A) : bool :=
  match o with Ok _ => true | Panic => false end.

(** The three sentinel errors of pkg/event/event.go:27-31. *)
Inductive sentinel : Type :=
| SKeyExists            (* event.go:28 ErrKeyExists *)
| STargetKeyNotObject   (* event.go:29 ErrTargetKeyNotObject *)
| SEmptyKey.            (* event.go:30 ErrEmptyKey *)

Global Instance sentinel_eq_dec : EqDecision sentinel.
Proof. solve_decision. Defined.

(** Go error values as the code builds them: a sentinel, [errors.New] or
    [fmt.Errorf] without %w, [fmt.Errorf] with %w (which wraps), and
    [processor.ErrorKeyMissing] (pkg/processor/error.go:25-27). *)
Inductive goerr : Type :=
| ESent (s : sentinel)
| EMsg (msg : string)
| EWrap (prefix : string) (inner : goerr)
| EKeyMissing (key : string).

Global Instance goerr_eq_dec : EqDecision goerr.
Proof. solve_decision. Defined.

(** [errors.Is(err, ErrorKeyMissing{})]: walk the Unwrap chain; an
    ErrorKeyMissing matches any ErrorKeyMissing whatever its Key
    (pkg/processor/error.go:33-36 [ErrorKeyMissing.Is]). *)
Fixpoint is_missing (e : goerr) : bool :=
  match e with
  | EKeyMissing _ => true
  | EWrap _ inner => is_missing inner
  | _ => false
  end.

(** [errors.Is(err, sentinel)]. *)
Fixpoint is_sentinel (s : sentinel) (e : goerr) : bool :=
  match e with
  | ESent s' => bool_decide (s = s')
  | EWrap _ inner => is_sentinel s inner
  | _ => false
  end.

(** The text of an error: event.go:28-30 and pkg/processor/error.go:29-31. *)
Fixpoint err_text (e : goerr) : string :=
  match e with
  | ESent SKeyExists => "key already exists"
  | ESent STargetKeyNotObject => "target key is not an object"
  | ESent SEmptyKey => "key name is empty"
  | EMsg m => m
  | EWrap p inner => p +:+ err_text inner
  | EKeyMissing k => "key <" +:+ k +:+ "> is missing from event"
  end.

(* stdpp marks [String.append] as [simpl never]; undo that. *)
Global Arguments String.append !_ _ / : assert.
