(** * Cleaning decoded YAML values: C85.

    [distinct v]: no map has two entries of one key, which holds of every Go value.
    [cleaned v r]: r is v with string keys in all maps, no slice and no map of it nil.
    [blocked v]: a map reached through slices and maps has a key that is no string.
    [revisited v v']: the same value, its maps visited in another order (Clean.v, under
    "Specification"). *)
From Verif Require Import Clean.

(** The value returned is the cleaned one, whatever the value. *)
Theorem C85_result : ∀ v r, distinct v → cleanValue v = Ok r ↔ cleaned v r.
Proof. exact result_iff. Qed.
Print Assumptions C85_result.
(** It crashes exactly on keys that are not strings; so everything else has a result. *)
Theorem C85_crashes : ∀ v, cleanValue v = Panic ↔ blocked v.
Proof. exact panic_iff. Qed.
Print Assumptions C85_crashes.
(** The result has maps with string keys only, and cleaning it again changes nothing. *)
Theorem C85_clean : ∀ v r, distinct v → cleanValue v = Ok r → named r ∧ cleanValue r = Ok r.
Proof. intros v r Hd H%result_iff; [|done]. apply cleaned_named in H. split; [done|by apply named_fixed]. Qed.
Print Assumptions C85_clean.
(** The order in which Go visits the maps makes no difference. *)
Theorem C85_order : ∀ v v', distinct v → revisited v v' → cleanValue v = cleanValue v'.
Proof.
  intros v v' Hd H. destruct (cleanValue v) as [r|] eqn:E.
  - apply result_iff in E; [|done]. symmetry. apply result_iff; [by eapply revisited_distinct|by eapply revisited_cleaned].
  - symmetry. apply panic_iff. apply panic_iff in E. by eapply revisited_blocked.
Qed.
Print Assumptions C85_order.

(** Not vacuous: {b: [nil map], 7 or a: {x: 1}}. *)
Definition ex_in (k : ikey) : ival :=
  IMapAny false [(KStr "b", ISlice false [IMapStr true []]); (k, IMapAny false [(KStr "x", IAtom 1)])].
Definition ex_back (k : ikey) : ival :=
  IMapAny false [(k, IMapAny false [(KStr "x", IAtom 1)]); (KStr "b", ISlice false [IMapStr true []])].
Definition ex_out : ival :=
  IMapStr false [("a", IMapStr false [("x", IAtom 1)]); ("b", ISlice false [IMapStr false []])].
Example C85_ex_distinct : distinct (ex_in (KStr "a")).
Proof.
  constructor; [cbn; repeat (apply NoDup_cons; split; [by rewrite ?elem_of_cons, elem_of_nil; intros Hin; destruct_or?|]); apply NoDup_nil_2|].
  repeat (apply Forall_cons_2; [cbn|]); try apply Forall_nil_2.
  - constructor. apply Forall_cons_2; [|apply Forall_nil_2]. constructor; [apply NoDup_nil_2|apply Forall_nil_2].
  - constructor; [apply NoDup_singleton|]. apply Forall_cons_2; [constructor|apply Forall_nil_2].
Qed.
Example C85_ex_result : cleanValue (ex_in (KStr "a")) = Ok ex_out ∧ cleaned (ex_in (KStr "a")) ex_out.
Proof. split; [reflexivity|]. apply C85_result; [apply C85_ex_distinct|reflexivity]. Qed.
Example C85_ex_crash : blocked (ex_in (KOther 7)) ∧ cleanValue (ex_in (KOther 7)) = Panic.
Proof. split; [|reflexivity]. eapply bl_key. right. by left. Qed.
Example C85_ex_order : revisited (ex_in (KStr "a")) (ex_back (KStr "a")) ∧ cleanValue (ex_back (KStr "a")) = Ok ex_out.
Proof.
  split; [|reflexivity]. eapply rv_any; [apply perm_swap|]. repeat (apply Forall2_cons_2; [split; [done|cbn]|]); [| |apply Forall2_nil_2].
  - eapply rv_any; [done|]. apply Forall2_cons_2; [split; [done|constructor]|apply Forall2_nil_2].
  - constructor. apply Forall2_cons_2; [|apply Forall2_nil_2]. by eapply rv_str.
Qed.
