(** * Property theorems for pipeline definitions as JSON: C44.

    [MarshalOpt fmt c], [MarshalConfig fmt c]: json.Marshal of an option block or a
    whole definition; None is a returned error.  [UnmarshalOpt text],
    [UnmarshalConfig text]: json.Unmarshal into a zero value.  [fmt] is strconv's way
    of writing doubles, assumed only to read back ([float_format]). *)
From Verif Require Import ConfigJsonFacts ConfigMeaning.
Local Open Scope Z_scope.

(** What comes back, for every option block without an option named like id, if or
    on_failure and without NaN or infinities: everything as [opt_returned] says.  Such
    a block is written unless it nests more than 10000 deep. *)
Theorem C44_exact : ∀ fmt c, float_format fmt → opt_fine c →
  (10000 < odepth c → MarshalOpt fmt c = None) ∧
  (odepth c ≤ 10000 → ∃ text, MarshalOpt fmt c = Some text ∧ UnmarshalOpt text = Some (opt_returned c)).
Proof.
  intros fmt c Hf Hc. destruct (opt_round fmt c Hf Hc) as (js & E1 & E2 & _ & W & D).
  unfold MarshalOpt, maxNestingDepth. rewrite E1, D. split; intros H.
  - destruct (Z.leb_spec (odepth c) 10000); [lia|done].
  - destruct (Z.leb_spec (odepth c) 10000); [|lia]. eexists. split; [done|]. unfold UnmarshalOpt.
    rewrite parse_render by done. rewrite jdepth_jfix, D. unfold maxNestingDepth.
    destruct (Z.leb_spec (odepth c) 10000); [done|lia].
Qed.
Print Assumptions C44_exact.

(** The names excluded are exactly those that count as id, if or on_failure when read
    ([names_field], ConfigMeaning.v). *)
Theorem C44_reserved_names : ∀ k, reserved_like k ↔ names_field "id" k ∨ names_field "if" k ∨ names_field "on_failure" k.
Proof. intros k. destruct letters_names as (L1 & L2 & L3 & _). unfold reserved_like. by rewrite !names_iff. Qed.
Print Assumptions C44_reserved_names.

(** Full statement wanted: for every option block.  Proved: the same block comes back
    if moreover its strings are valid UTF-8 and its option values are of the kinds
    JSON decoding produces (nil, booleans, finite floats, strings, arrays, objects). *)
Theorem C44_round_trip_partial : ∀ fmt c, float_format fmt → opt_fine c → opt_stable c → odepth c ≤ 10000 →
  ∃ text, MarshalOpt fmt c = Some text ∧ UnmarshalOpt text = Some c.
Proof.
  intros fmt c Hf Hc Hs Hd. destruct (C44_exact fmt c Hf Hc) as [_ H]. destruct (H Hd) as (text & H1 & H2).
  exists text. split; [done|]. by rewrite opt_stable_returned in H2.
Qed.
Print Assumptions C44_round_trip_partial.

(** The same for whole definitions. *)
Theorem C44_config_exact : ∀ fmt c, float_format fmt → procs_fine (cf_procs c) → procs_fine (cf_onf c) →
  (10000 < config_depth c → MarshalConfig fmt c = None) ∧
  (config_depth c ≤ 10000 → ∃ text, MarshalConfig fmt c = Some text ∧ UnmarshalConfig text = Some (config_returned c)).
Proof.
  intros fmt c Hf H1 H2. destruct (config_round fmt c Hf H1 H2) as (j & E1 & E2 & W & D).
  unfold MarshalConfig, maxNestingDepth. rewrite E1, D. split; intros H.
  - destruct (Z.leb_spec (config_depth c) 10000); [lia|done].
  - destruct (Z.leb_spec (config_depth c) 10000); [|lia]. eexists. split; [done|]. unfold UnmarshalConfig.
    rewrite parse_render by done. rewrite jdepth_jfix, D. unfold maxNestingDepth.
    destruct (Z.leb_spec (config_depth c) 10000); [done|lia].
Qed.
Print Assumptions C44_config_exact.
Definition procs_stable (l : list pcfg) : Prop := Forall (Forall (λ kv : string * option ocfg, valid_utf8 kv.1 ∧ optP opt_stable kv)) l.
Theorem C44_config_round_trip_partial : ∀ fmt c, float_format fmt → valid_utf8 (cf_id c) → valid_utf8 (cf_desc c) →
  procs_fine (cf_procs c) → procs_fine (cf_onf c) → procs_stable (cf_procs c) → procs_stable (cf_onf c) →
  config_depth c ≤ 10000 →
  ∃ text, MarshalConfig fmt c = Some text ∧ UnmarshalConfig text = Some c.
Proof.
  intros fmt c Hf Hi Hde F1 F2 S1 S2 Hd. destruct (C44_config_exact fmt c Hf F1 F2) as [_ H].
  destruct (H Hd) as (text & H1 & H2). exists text. split; [done|]. rewrite H2. f_equal. destruct c as [id desc procs onf].
  unfold config_returned. cbn [cf_id cf_desc cf_procs cf_onf] in *.
  rewrite (proj2 (fix_utf8_iff _) Hi), (proj2 (fix_utf8_iff _) Hde).
  assert (∀ l, procs_fine l → procs_stable l → map proc_returned l = l) as Hl.
  { intros l Hfl Hsl. rewrite <- (map_id l) at 2. apply map_ext_in. intros p Hp. apply elem_of_list_In in Hp.
    unfold procs_fine, procs_stable in *. rewrite Forall_forall in Hfl, Hsl. destruct (Hfl _ Hp) as [Hps Hpf]. specialize (Hsl _ Hp).
    apply proc_stable; [done|]. rewrite Forall_forall in *. intros [k o] Hkv. specialize (Hpf _ Hkv). destruct (Hsl _ Hkv) as [? Hso].
    split; [done|]. destruct o; simpl in *; [by apply opt_stable_returned|done]. }
  by rewrite (Hl procs), (Hl onf).
Qed.
Print Assumptions C44_config_round_trip_partial.

(** A non-trivial definition meets the hypotheses. *)
Definition ex_handler : ocfg := OptCfg "" "" [] [("target_field", TStr "error")].
Definition ex_block : ocfg :=
  OptCfg "s1" "true" [[("set", Some ex_handler)]; [("drop", None)]] [("ignore_failure", TBool true); ("target_field", TStr "a.b")].
Definition ex_config : config cfgmap := mkConfig "p" "demo" [[("set", Some ex_block)]] [[("drop", None)]].
Ltac valid_ascii := apply ascii_valid; repeat constructor; vm_compute; reflexivity.
Lemma ex_handler_fine : opt_fine ex_handler ∧ opt_stable ex_handler.
Proof.
  split.
  - apply opt_fine_eq. split_and!; [repeat constructor| |constructor]. repeat constructor.
    unfold reserved_like. vm_compute. intuition congruence.
  - apply opt_stable_eq. split_and!; [valid_ascii|valid_ascii| |constructor].
    repeat (apply List.Forall_cons; [split_and!; [done|valid_ascii|try done; valid_ascii]|]). apply List.Forall_nil.
Qed.
Lemma ex_block_fine : opt_fine ex_block ∧ opt_stable ex_block.
Proof.
  split.
  - apply opt_fine_eq. split_and!; [repeat constructor| |].
    + repeat (apply List.Forall_cons; [split; [unfold reserved_like; vm_compute; intuition congruence|done]|]). apply List.Forall_nil.
    + apply List.Forall_cons; [split; [repeat constructor|]|apply List.Forall_cons; [split; [repeat constructor|]|apply List.Forall_nil]].
      * apply List.Forall_cons; [|apply List.Forall_nil]. apply ex_handler_fine.
      * repeat constructor.
  - apply opt_stable_eq. split_and!; [valid_ascii|valid_ascii| |].
    + repeat (apply List.Forall_cons; [split_and!; [done|valid_ascii|try done; valid_ascii]|]). apply List.Forall_nil.
    + apply List.Forall_cons; [|apply List.Forall_cons; [|apply List.Forall_nil]]; (apply List.Forall_cons; [|apply List.Forall_nil]).
      * split; [valid_ascii|]. apply ex_handler_fine.
      * split; [valid_ascii|done].
Qed.
Example C44_ex : opt_fine ex_block ∧ opt_stable ex_block ∧ odepth ex_block ≤ 10000 ∧
  MarshalOpt exact_decimal ex_block = Some (list_ascii_of_string
    "{""id"":""s1"",""if"":""true"",""ignore_failure"":true,""on_failure"":[{""set"":{""target_field"":""error""}},{""drop"":null}],""target_field"":""a.b""}").
Proof.
  destruct ex_block_fine. split_and!; [done|done|vm_compute; congruence|vm_compute; reflexivity].
Qed.
Example C44_config_ex : procs_fine (cf_procs ex_config) ∧ procs_fine (cf_onf ex_config) ∧
  procs_stable (cf_procs ex_config) ∧ procs_stable (cf_onf ex_config) ∧ config_depth ex_config ≤ 10000 ∧
  MarshalConfig exact_decimal (mkConfig "p" "" (cf_onf ex_config) []) = Some (list_ascii_of_string
    "{""id"":""p"",""processors"":[{""drop"":null}]}").
Proof.
  destruct ex_block_fine. split_and!; [| | | |vm_compute; congruence|vm_compute; reflexivity].
  - apply List.Forall_cons; [|apply List.Forall_nil]. split; [repeat constructor|]. by apply List.Forall_cons; [|apply List.Forall_nil].
  - apply List.Forall_cons; [|apply List.Forall_nil]. split; [repeat constructor|]. by apply List.Forall_cons; [|apply List.Forall_nil].
  - apply List.Forall_cons; [|apply List.Forall_nil]. apply List.Forall_cons; [|apply List.Forall_nil]. split; [valid_ascii|done].
  - apply List.Forall_cons; [|apply List.Forall_nil]. apply List.Forall_cons; [|apply List.Forall_nil]. split; [valid_ascii|done].
Qed.

(** Not every block comes back: an integer option becomes a float, *)
Theorem C44_integer_refuted : ∃ text, MarshalOpt exact_decimal (OptCfg "" "" [] [("n", TInt 1)]) = Some text ∧
  UnmarshalOpt text = Some (OptCfg "" "" [] [("n", TFloat 0x3FF0000000000000)]).
Proof. eexists. split; [vm_compute; reflexivity|vm_compute; reflexivity]. Qed.
Print Assumptions C44_integer_refuted.
(** an option named ID sets the id as well, *)
Theorem C44_case_refuted : ∃ text, MarshalOpt exact_decimal (OptCfg "" "" [] [("ID", TStr "x")]) = Some text ∧
  UnmarshalOpt text = Some (OptCfg "x" "" [] [("ID", TStr "x")]).
Proof. eexists. split; [vm_compute; reflexivity|vm_compute; reflexivity]. Qed.
Print Assumptions C44_case_refuted.
(** an option named id replaces the id and is lost, *)
Theorem C44_override_refuted : ∃ text, MarshalOpt exact_decimal (OptCfg "a" "" [] [("id", TStr "x")]) = Some text ∧
  UnmarshalOpt text = Some (OptCfg "x" "" [] []).
Proof. eexists. split; [vm_compute; reflexivity|vm_compute; reflexivity]. Qed.
Print Assumptions C44_override_refuted.
(** and one named If that is no string makes the written text unreadable. *)
Theorem C44_unreadable_refuted : ∃ text, MarshalOpt exact_decimal (OptCfg "a" "" [] [("If", TBool true)]) = Some text ∧
  UnmarshalOpt text = None.
Proof. eexists. split; [vm_compute; reflexivity|vm_compute; reflexivity]. Qed.
Print Assumptions C44_unreadable_refuted.
