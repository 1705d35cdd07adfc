(** * C61: what the JSON text of a definition says.

    [UnmarshalConfig text], [UnmarshalOpt text]: json.Unmarshal of [text] into a zero
    Config or ProcessorOptionConfig (pkg/pipeline/config.go); None is an error.
    [document text j] (JsonGrammar.v): [text] is JSON for the value [j];
    [within 10000 j]: not nested too deep; [def_means j c], [block_means j c]
    (ConfigMeaning.v): [j] read as a definition or as the options of a processor is
    [c]. *)
From Verif Require Import ConfigMeaning.
From Coq Require Import Lia.
Local Open Scope Z_scope.

(** A text is accepted exactly if it is JSON, not nested too deep, and says a definition;
    that definition is the result. *)
Theorem C61_definition : ∀ text c,
  UnmarshalConfig text = Some c ↔ ∃ j, document text j ∧ within 10000 j ∧ def_means j c.
Proof.
  intros text c. unfold UnmarshalConfig. split.
  - destruct (parse text) as [j|] eqn:E; [|done]. destruct (Z.leb_spec (jdepth j) maxNestingDepth); [|done]. intros HE.
    apply parse_iff in E. exists j. split_and!; [done|by apply within_iff|]. apply def_iff; [by eapply document_valid|done].
  - intros (j & Hd & Hw & Hm). apply def_iff in Hm; [|by eapply document_valid]. apply parse_iff in Hd. rewrite Hd.
    apply within_iff in Hw; [|lia]. unfold maxNestingDepth. by destruct (Z.leb_spec (jdepth j) 10000); [|lia].
Qed.
Print Assumptions C61_definition.
(** The same for the options of a single processor; null says none. *)
Theorem C61_block : ∀ text c,
  UnmarshalOpt text = Some c ↔
  ∃ j, document text j ∧ within 10000 j ∧ (j = JNull ∧ c = OptCfg "" "" [] [] ∨ block_means j c).
Proof.
  intros text c. unfold UnmarshalOpt. split.
  - destruct (parse text) as [j|] eqn:E; [|done]. destruct (Z.leb_spec (jdepth j) maxNestingDepth); [|done]. intros HE.
    apply parse_iff in E. exists j. split_and!; [done|by apply within_iff|].
    assert (j = JNull ∨ j ≠ JNull) as [->|Hn] by (destruct j; auto); [injection HE as <-; by left|].
    right. apply block_iff; [by eapply document_valid|done].
  - intros (j & Hd & Hw & Hm). pose proof (document_valid _ _ Hd) as Hv. apply parse_iff in Hd. rewrite Hd.
    apply within_iff in Hw; [|lia]. unfold maxNestingDepth. destruct (Z.leb_spec (jdepth j) 10000); [|lia].
    destruct Hm as [[-> ->]|Hm]; [done|]. apply block_iff in Hm as [_ Hm]; done.
Qed.
Print Assumptions C61_block.
(** A definition says one thing only. *)
Theorem C61_unambiguous : ∀ text j j' c c', document text j → def_means j c → document text j' → def_means j' c' → c = c'.
Proof.
  intros text j j' c c' D M D' M'. pose proof (document_valid _ _ D) as V. apply def_iff in M; [|done].
  assert (j = j') as <- by (apply parse_iff in D, D'; congruence). apply def_iff in M'; [congruence|done].
Qed.
Print Assumptions C61_unambiguous.

(** Example: repeated and oddly spelled keys.  A list given again is merged into the one
    before, and entries cut off by a shorter list come back with a longer one. *)
Definition c61_text : list ascii := list_ascii_of_string
  "{""Id"":""p"",""id"":null,""on_failure"":[{""a"":null},{""b"":{""If"":""x"",""n"":1}}],""ON_failure"":[{""c"":null}],""on_failure"":[{},{""d"":null}],""other"":1e999}".
Example C61_ex : UnmarshalConfig c61_text = Some (mkConfig "p" "" []
  [[("a", None); ("c", None)]; [("b", Some (OptCfg "" "x" [] [("If", TStr "x"); ("n", TFloat 0x3FF0000000000000)])); ("d", None)]]).
Proof. vm_compute. reflexivity. Qed.
Example C61_ex_long_s : UnmarshalConfig (list_ascii_of_string "{""de" ++ [zb 0xC5; zb 0xBF] ++ list_ascii_of_string "cription"":""d""}") =
  Some (mkConfig "" "d" [] []).
Proof. vm_compute. reflexivity. Qed.
(** Refused: an id that is no string; a processor that is no object; an option that is too
    large a number. *)
Example C61_ex_refused :
  UnmarshalConfig (list_ascii_of_string "{""id"":1}") = None ∧
  UnmarshalConfig (list_ascii_of_string "{""processors"":[1]}") = None ∧
  UnmarshalConfig (list_ascii_of_string "{""processors"":[{""set"":{""value"":1e999}}]}") = None.
Proof. split_and!; vm_compute; reflexivity. Qed.
