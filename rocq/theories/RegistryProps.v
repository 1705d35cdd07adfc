(** * The registry: more of C33.

    [Register r name i] on the registry [r]: the new registry and the error; [register_all]: a
    history of registrations; [valid_constructor v cfg p e]: [v] is a function from the struct
    [cfg] to the processor pointer [p] and the error [e]; [first_valid name l c]: [c] is made of
    the first valid constructor registered as [name] in [l] (Registry.v). *)
From Verif Require Import Registry.

(** The kinds of Go types that have nil among their values. *)
Definition can_be_nil (k : gkind) : Prop :=
  k = KInterface ∨ k = KPtr ∨ k = KFunc ∨ k = KOther "slice" ∨ k = KOther "map" ∨ k = KOther "chan".

(** Register crashes exactly if the name is free and it is given nil, a nil function, or a
    constructor that crashes on the zero configuration (which it calls). *)
Theorem C33_register_crashes : ∀ (CfgVal Proc : Type) (r : registry CfgVal Proc) name i,
  Register r name i = Panic ↔ mget name r = None ∧
    (i = None ∨ ∃ v cfg p e, i = Some v ∧ valid_constructor v cfg p e ∧ (f_nil v = true ∨ f_call v (f_zero v) = Panic)).
Proof.
  intros CfgVal Proc r name i. unfold Register. destruct (mget name r) as [c|]; [split; [done|by intros [? _]]|].
  transitivity (validateConfig i = Panic); [by destruct (validateConfig i) as [[?|?]|]|]. unfold validateConfig, valid_constructor. split.
  - intros H. split; [done|]. destruct i as [v|]; [|by left]. right. exists v.
    destruct (bool_decide_reflect (f_kind v = KFunc)); [|done]. cbn [negb] in H.
    destruct (f_in v) as [|cfg [|]] eqn:?; try done.
    destruct (bool_decide_reflect (ty_kind cfg = KStruct)); [|done]. cbn [negb] in H.
    destruct (f_out v) as [|p [|er [|]]] eqn:?; try done.
    destruct (bool_decide_reflect (ty_kind p = KPtr)); [|done]. cbn [negb] in H.
    destruct (ty_is_processor p) eqn:?; [|done]. cbn [negb] in H.
    destruct (ty_is_error er) eqn:?; [|done]. cbn [negb] in H. exists cfg, p, er. split_and!; try done.
    destruct (f_nil v); [by left|right]. by destruct (f_call v (f_zero v)).
  - intros [_ [->|(v & cfg & p & er & -> & (Hk & Hi & Ho & Hc & Hp & Hpp & He) & H)]]; [done|].
    rewrite Hk, Hi, Ho. rewrite bool_decide_true by done. cbn [negb]. rewrite bool_decide_true by done. cbn [negb].
    rewrite bool_decide_true by done. cbn [negb]. rewrite Hpp, He. cbn [negb]. destruct (f_nil v); [done|]. destruct H as [H|H]; [done|]. by rewrite H.
Qed.
Print Assumptions C33_register_crashes.

(** NewProcessor after any history of registrations: the configuration is unpacked into the
    parameter type of the constructor that was registered first under the name, and that
    constructor makes the processor or the error. *)
Theorem C33_new_processor : ∀ (CfgMap CfgVal Proc : Type) (unpack : string → CfgMap → CfgVal + goerr)
    (l : list (string * option (goval CfgVal Proc))) r es before name v after cfg p e m,
  register_all NewRegistry l = Ok (r, es) →
  l = before ++ (name, Some v) :: after → valid_constructor v cfg p e →
  (∀ v' cfg' p' e', (name, Some v') ∈ before → ¬ valid_constructor v' cfg' p' e') →
  can_be_nil (ty_kind e) →
  (∀ err, unpack (ty_name cfg) m = inr err → NewProcessor unpack r name m = Ok (inr err)) ∧
  (∀ x, unpack (ty_name cfg) m = inl x →
    (∀ q, f_call v x = Ok (q, None) → NewProcessor unpack r name m = Ok (inl q)) ∧
    (∀ q err, f_call v x = Ok (q, Some err) → NewProcessor unpack r name m = Ok (inr err)) ∧
    (f_call v x = Panic → NewProcessor unpack r name m = Panic)).
Proof.
  intros CfgMap CfgVal Proc unpack l r es before name v after cfg p e m Hr Hl Hv Hb He.
  apply (register_all_lookup l _ _ _ name) in Hr. cbn [NewRegistry mget] in Hr.
  assert (mget name r = Some (ctor_of v cfg e)) as Hg. { apply Hr. exists before, v, after, cfg, p, e. done. }
  unfold NewProcessor. rewrite Hg. cbn [ctor_of c_cfgtype c_call c_err_nilable]. assert (nilable (ty_kind e) = true) as -> by (by destruct He as [-> |[-> |[-> |[-> |[-> | ->]]]]]).
  split; [by intros err ->|]. intros x ->. split_and!; [intros q E|intros q err E|intros E]; by rewrite E.
Qed.
Print Assumptions C33_new_processor.
(** ... and if it was never registered as valid, there is an error. *)
Theorem C33_not_registered : ∀ (CfgMap CfgVal Proc : Type) (unpack : string → CfgMap → CfgVal + goerr)
    (l : list (string * option (goval CfgVal Proc))) r es name m,
  register_all NewRegistry l = Ok (r, es) →
  (∀ v cfg p e, (name, Some v) ∈ l → ¬ valid_constructor v cfg p e) →
  ∃ err, NewProcessor unpack r name m = Ok (inr err).
Proof.
  intros CfgMap CfgVal Proc unpack l r es name m Hr Hn. apply (register_all_lookup l _ _ _ name) in Hr. cbn [NewRegistry mget] in Hr.
  unfold NewProcessor. destruct (mget name r) as [c|]; [|by eexists]. exfalso.
  destruct (proj1 (Hr c) eq_refl) as (before & v & after & cfg & p & e & -> & Hv & _). apply (Hn v cfg p e); [|done].
  apply elem_of_app. right. by left.
Qed.
Print Assumptions C33_not_registered.
(** Finding: an error type without nil, a struct or a string type, passes Register, and then every NewProcessor whose
    configuration unpacks crashes, whatever the constructor returns. *)
Theorem C33_struct_error_refuted : ∀ (CfgMap CfgVal Proc : Type) (unpack : string → CfgMap → CfgVal + goerr)
    (r r' : registry CfgVal Proc) name v cfg p e m x,
  Register r name (Some v) = Ok (r', None) → valid_constructor v cfg p e →
  ty_kind e = KStruct ∨ ty_kind e = KOther "string" →
  unpack (ty_name cfg) m = inl x → NewProcessor unpack r' name m = Panic.
Proof.
  intros CfgMap CfgVal Proc unpack r r' name v cfg p e m x H Hv He Hx. unfold Register in H. destruct (mget name r); [done|].
  destruct (validateConfig (Some v)) as [[pc|?]|] eqn:E; [|done|done]. injection H as <-.
  destruct (validateConfig_ok _ _ E) as (v' & cfg' & p' & e' & [= <-] & Hv' & ->).
  destruct Hv as (_ & Hi & Ho & _), Hv' as (_ & Hi' & Ho' & _). assert (cfg' = cfg) as -> by congruence. assert (e' = e) as -> by congruence.
  unfold NewProcessor. rewrite mget_mset, String.eqb_refl. cbn [ctor_of c_cfgtype c_call c_err_nilable]. rewrite Hx. assert (nilable (ty_kind e) = false) as -> by (by destruct He as [-> | ->]). by destruct (f_call v x) as [[? ?]|].
Qed.
Print Assumptions C33_struct_error_refuted.
(** MustRegister is Register, with a crash in place of an error. *)
Theorem C33_must_register : ∀ (CfgVal Proc : Type) (r : registry CfgVal Proc) name i r',
  MustRegister r name i = Ok r' ↔ Register r name i = Ok (r', None).
Proof. intros CfgVal Proc r name i r'. unfold MustRegister. destruct (Register r name i) as [[r1 [er|]]|]; split; congruence. Qed.
Print Assumptions C33_must_register.

(** Cases: [f n] makes processor n, [g] crashes on the zero configuration. *)
Example C33_more_ex :
  let cfg := mkType "C" KStruct false false in
  let pt := mkType "*P" KPtr true false in let et := mkType "error" KInterface false true in let st := mkType "E" KStruct false true in
  let f (n : nat) := mkVal KFunc [cfg] [pt; et] false (λ x : nat, Ok (n + x, if Nat.eqb x 9 then Some (EMsg "nine") else None)) 0 in
  let g := mkVal KFunc [cfg] [pt; et] false (λ x : nat, match x with 0 => Panic | _ => Ok (x, None) end) 0 in
  let s := mkVal KFunc [cfg] [pt; st] false (λ x : nat, Ok (x, None)) 0 in
  (∃ r es, register_all NewRegistry [("b", Some s); ("a", Some (f 1)); ("a", Some (f 2))] = Ok (r, es) ∧
    NewProcessor (λ _ m, inl m) r "a" 7 = Ok (inl 8) ∧ NewProcessor (λ _ m, inl m) r "a" 9 = Ok (inr (EMsg "nine")) ∧
    NewProcessor (λ _ m, inl m) r "b" 7 = Panic) ∧
  valid_constructor (f 1) cfg pt et ∧ valid_constructor s cfg pt st ∧ valid_constructor g cfg pt et ∧
  Register NewRegistry "a" (Some g) = Panic ∧ Register (NewRegistry : registry nat nat) "a" None = Panic.
Proof. split; [eexists _, _; split; [vm_compute; reflexivity|]; split_and!; reflexivity|]. unfold valid_constructor. split_and!; reflexivity. Qed.
