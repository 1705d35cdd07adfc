(** * C77: a definition in JSON says the same when it is read as YAML.

    [UnmarshalConfig text]: json.Unmarshal of [text] into a Config (C44, C61), as in the C
    library.  [loadPipeline (FirstDocument n)]: the program sawmill reading a YAML document
    with the tree of nodes [n] (C75).  [document text j]: [text] is JSON for the value [j].
    [as_yaml j n], [tidy j], [same_config c c'] (YamlJson.v). *)
From Verif Require Import YamlJson.
Local Open Scope Z_scope.

(** Every definition in JSON other than null, without repeated names and with the fields' names in small letters, is
    read alike from YAML, up to the type of integers. *)
Theorem C77_same : ∀ text j n c,
  document text j → j ≠ JNull → tidy j → as_yaml j n → UnmarshalConfig text = Some c →
  ∃ c', loadPipeline (FirstDocument n) = Some (Some c') ∧ same_config c c'.
Proof.
  intros text j n c Hd Hn Ht Ha H. pose proof (document_valid _ _ Hd) as Hv. apply parse_iff in Hd. unfold UnmarshalConfig in H. rewrite Hd in H.
  destruct (jdepth j <=? maxNestingDepth); [|done]. by apply (same_definition j n c).
Qed.
Print Assumptions C77_same.

Definition word (s : string) : ynode := YLeaf s LStr.
Definition ex77_text : list ascii := list_ascii_of_string
  "{""id"":""p"",""processors"":[{""set"":{""if"":""c"",""target_field"":""a"",""list"":[""x"",{""k"":null}],""on_failure"":[{""drop"":null}]}},null]}".
Definition ex77_json : json := JObj [("id", JStr "p"); ("processors", JArr [JObj [("set", JObj
  [("if", JStr "c"); ("target_field", JStr "a"); ("list", JArr [JStr "x"; JObj [("k", JNull)]]); ("on_failure", JArr [JObj [("drop", JNull)]])])]; JNull])].
Definition ex77_yaml : ynode := YMap [(word "id", word "p"); (word "processors", YSeq [YMap [(word "set", YMap
  [(word "if", word "c"); (word "target_field", word "a"); (word "list", YSeq [word "x"; YMap [(word "k", YLeaf "null" LNull)]]);
   (word "on_failure", YSeq [YMap [(word "drop", YLeaf "null" LNull)]])])]; YLeaf "null" LNull])].
Lemma own_spelling_lower k : (∀ f, f ∈ ["id"; "description"; "if"; "processors"; "on_failure"] → lower k = f → k = f) → own_spelling k.
Proof.
  intros H f Hf Hn. apply H; [done|]. destruct letters_names as (L1 & L2 & L3 & L4 & L5).
  apply names_iff in Hn; [done|]. rewrite !elem_of_cons, elem_of_nil in Hf. naive_solver.
Qed.
Ltac spelled_out := apply own_spelling_lower; intros f Hf; rewrite !elem_of_cons, elem_of_nil in Hf; vm_compute; intuition congruence.
Ltac tidy_all := repeat first
  [ apply td_null | apply td_str | apply td_num | apply td_arr | apply td_obj; [apply (bool_decide_unpack _); vm_compute; exact I|]
  | apply List.Forall_nil | apply List.Forall_cons; [try (split; cbn [fst snd]; [spelled_out|])|] ].
Ltac yaml_all := repeat first
  [ apply ay_null | apply ay_str | apply ay_arr | apply ay_obj
  | apply List.Forall2_nil | apply List.Forall2_cons; [try (split; cbn [fst snd]; [reflexivity|])|] ].
Example C77_ex : document ex77_text ex77_json ∧ tidy ex77_json ∧ as_yaml ex77_json ex77_yaml ∧
  UnmarshalConfig ex77_text = Some (mkConfig "p" "" [[("set", Some (OptCfg "" "c" [[("drop", None)]]
    [("list", TArr [TStr "x"; TObj [("k", TNil)]]); ("target_field", TStr "a")]))]; []] []) ∧
  loadPipeline (FirstDocument ex77_yaml) = Some (Some (mkConfig "p" "" [[("set", Some (OptCfg "" "c" [[("drop", None)]]
    [("list", VList [VStr "x"; VMap [("k", VNil)]]); ("target_field", VStr "a")]))]; []] [])).
Proof.
  split_and!.
  - apply parse_iff. vm_compute. reflexivity.
  - unfold ex77_json. tidy_all.
  - unfold ex77_json, ex77_yaml. yaml_all.
  - vm_compute. reflexivity.
  - reflexivity.
Qed.

(** It is false in general: an integer option is a double in JSON and an integer in YAML
    (so set, for example, makes values of different types), *)
Theorem C77_integers_refuted : ∃ text j n,
  document text j ∧ as_yaml j n ∧ tidy j ∧
  UnmarshalConfig text = Some (mkConfig "" "" [[("set", Some (OptCfg "" "" [] [("value", TFloat 0x3FF0000000000000)]))]] []) ∧
  loadPipeline (FirstDocument n) = Some (Some (mkConfig "" "" [[("set", Some (OptCfg "" "" [] [("value", VInt 1)]))]] [])).
Proof.
  exists (list_ascii_of_string "{""processors"":[{""set"":{""value"":1}}]}"), (JObj [("processors", JArr [JObj [("set", JObj [("value", JNum false 1 0)])]])]),
    (YMap [(word "processors", YSeq [YMap [(word "set", YMap [(word "value", YLeaf "1" (LInt 1))])]])]).
  split_and!.
  - apply parse_iff. vm_compute. reflexivity.
  - yaml_all. apply ay_num. by apply (yn_int false 1 0).
  - tidy_all.
  - vm_compute. reflexivity.
  - reflexivity.
Qed.
Print Assumptions C77_integers_refuted.
(** null is an empty definition in JSON and no definition in YAML (C76), *)
Theorem C77_null_refuted : ∀ t, UnmarshalConfig (list_ascii_of_string "null") = Some (mkConfig "" "" [] []) ∧
  loadPipeline (FirstDocument (YLeaf t LNull)) = Some None.
Proof. split; [vm_compute|]; reflexivity. Qed.
Print Assumptions C77_null_refuted.
(** a name that is given twice is accepted by JSON only, *)
Theorem C77_repeated_refuted : ∃ text j n, document text j ∧ as_yaml j n ∧
  UnmarshalConfig text = Some (mkConfig "b" "" [] []) ∧ loadPipeline (FirstDocument n) = None.
Proof.
  exists (list_ascii_of_string "{""id"":""a"",""id"":""b""}"), (JObj [("id", JStr "a"); ("id", JStr "b")]), (YMap [(word "id", word "a"); (word "id", word "b")]).
  split_and!; [apply parse_iff; vm_compute; reflexivity|yaml_all|vm_compute; reflexivity|reflexivity].
Qed.
Print Assumptions C77_repeated_refuted.
(** capital letters in the name of a field matter in YAML only, *)
Theorem C77_capitals_refuted : ∃ text j n, document text j ∧ as_yaml j n ∧
  UnmarshalConfig text = Some (mkConfig "a" "" [] []) ∧ loadPipeline (FirstDocument n) = Some (Some (mkConfig "" "" [] [])).
Proof.
  exists (list_ascii_of_string "{""ID"":""a""}"), (JObj [("ID", JStr "a")]), (YMap [(word "ID", word "a")]).
  split_and!; [apply parse_iff; vm_compute; reflexivity|yaml_all|vm_compute; reflexivity|reflexivity].
Qed.
Print Assumptions C77_capitals_refuted.
(** and a number can be an id in YAML only. *)
Theorem C77_number_as_text_refuted : ∃ text j n, document text j ∧ as_yaml j n ∧ tidy j ∧
  UnmarshalConfig text = None ∧ loadPipeline (FirstDocument n) = Some (Some (mkConfig "5" "" [] [])).
Proof.
  exists (list_ascii_of_string "{""id"":5}"), (JObj [("id", JNum false 5 0)]), (YMap [(word "id", YLeaf "5" (LInt 5))]).
  split_and!; [apply parse_iff; vm_compute; reflexivity|yaml_all; apply ay_num; by apply (yn_int false 5 0)|tidy_all|vm_compute; reflexivity|reflexivity].
Qed.
Print Assumptions C77_number_as_text_refuted.
