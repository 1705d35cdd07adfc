(** * The generators (C67-C70) and bufio.Scanner for every reader (C45).

    Text is a list of bytes ([txt] writes it down), [nl] a newline.  go-wordwrap and
    strconv.Quote are arguments ([library]): the theorems hold for every choice of them.

    - [join sep ls] puts [sep] between the [ls]; [split_nl t] are the lines of [t].
    - [newlines w] counts newlines; [comment_size indent w]: the length of the comment made
      from the wrapped text [w], before trimming.
    - [is_blank l], [white_space p]: only white space; one white space character.
    - [code_lines t]: the lines of [t] that do not consist of a // comment only. *)
From Verif Require Import GenNames.
From Coq Require Import Lia Sorting.Sorted.
Local Open Scope nat_scope.

(** ** C45: the lines do not depend on the reads *)
(** Whatever each Read delivers, the scanner delivers (with Text(), which copies) the lines
    of the input up to the first of 64 KiB, each without a carriage return at its end, and
    ends with an error exactly if there is such a line. *)
Theorem C45_lines_any_reader : ∀ bytes chunks ls, text_lines bytes ls →
  ∃ toks s, scan_buffered bytes chunks = Some (toks, s, bool_decide (Exists (λ l, (65536 <= Z.of_nat (length l))%Z) ls)) ∧
    map snd toks = map dropCR (upto_long ls).
Proof.
  intros bytes chunks ls Hls. unfold scan_buffered.
  destruct (scan_all_lines (scan_fuel (newScanner bytes chunks)) (newScanner bytes chunks)) as (toks & s & H1 & H2).
  - unfold sound, newScanner. cbn [s_start s_end s_buf s_eof s_in length]. split; [lia|]. split; [lia|]. split; [lia|]. discriminate.
  - apply Nat.le_refl.
  - change (held (newScanner bytes chunks)) with (@nil ascii) in *. change (s_in (newScanner bytes chunks)) with bytes in *. cbn [app] in *.
    rewrite (scan_lines _ _ Hls) in H1, H2. exists toks, s. split; [exact H1|exact H2].
Qed.
Print Assumptions C45_lines_any_reader.

(** ** C67: descriptions become comments *)
(** [t] is [l] without the white space at its end. *)
Definition cut_right (l t : list ascii) : Prop :=
  (∃ ws, Forall white_space ws ∧ l = t ++ concat ws) ∧ ∀ p r, white_space p → t ≠ r ++ p.
Lemma cut_right_trim l : cut_right l (trim_right l).
Proof.
  destruct (trim_right_split l) as (a & Ha & Hl & Hn). split.
  - exists a. split; [by apply white_spaces_all|done].
  - intros p r Hp. by apply Hn, white_spaces.
Qed.
(** A comment of at most 2048 bytes has the lines of the wrapped description, except a blank
    first and a blank last one, the further ones after the indentation and "// ", all
    without the white space at their ends. *)
Theorem C67_comment : ∀ lib indent desc, nl ∉ indent →
  let w := wrap lib desc (text_width indent) in
  (Z.of_nat (comment_size indent w) <= 2048)%Z →
  ∃ a ls b cs, split_nl w = a ++ ls ++ b ∧
    (a = [] ∧ (∀ l r, ls ++ b = l :: r → ¬ is_blank l) ∨ ∃ l, a = [l] ∧ is_blank l) ∧
    (b = [] ∧ (∀ l r, ls = r ++ [l] → ¬ is_blank l) ∨ ∃ l, b = [l] ∧ is_blank l) ∧
    Forall2 cut_right (match ls with [] => [] | l :: ls' => l :: map (λ l, indent ++ txt "// " ++ l) ls' end) cs ∧
    descriptionToComment lib indent desc = Some (join [nl] cs).
Proof.
  intros lib indent desc Hi w Hw. destruct (kept_lines_exact (split_nl w)) as (a & b & Hl & Ha & Hb).
  exists a, (drop_last (drop_first (split_nl w))), b. eexists. split; [exact Hl|]. split; [|split; [|split; [|by apply description_exact]]].
  { destruct (split_nl w) as [|l0 r0] eqn:Ew; [by destruct (split_nl_nonempty w)|]. cbn [head dropped] in Ha. destruct Ha as [[Ha ->]|[Ha ->]].
    - right. by exists l0.
    - left. split; [reflexivity|]. intros l r E. cbn [app] in Hl. rewrite <- Hl in E. by injection E as -> ->. }
  { destruct (last (drop_last (drop_first (split_nl w)) ++ b)) as [l0|] eqn:El; cbn [dropped] in Hb.
    - destruct Hb as [[Hb ->]|[Hb ->]]; [right; by exists l0|]. left. split; [reflexivity|]. intros l r E. rewrite app_nil_r, E, last_snoc in El. by injection El as ->.
    - left. split; [exact Hb|]. intros l r E. subst b. by rewrite app_nil_r, E, last_snoc in El. }
  fold w. generalize (drop_last (drop_first (split_nl w))) as ls. intros ls.
  assert (match ls with [] => [] | l :: ls' => l :: map (λ l, indent ++ txt "// " ++ l) ls' end = comment_lines indent ls) as ->.
  { destruct ls as [|l ls]; [done|]. cbn [comment_lines]. f_equal. apply map_ext. intros x. by rewrite <- app_assoc. }
  induction (comment_lines indent ls) as [|x xs IH]; cbn [map]; [apply List.Forall2_nil|]. apply List.Forall2_cons; [apply cut_right_trim|done].
Qed.
Print Assumptions C67_comment.
(** All of it stays behind "//". *)
Theorem C67_stays_comment : ∀ lib indent desc, nl ∉ indent →
  (Z.of_nat (comment_size indent (wrap lib desc (text_width indent))) <= 2048)%Z →
  ∃ c, descriptionToComment lib indent desc = Some c ∧ ∀ a b, c = a ++ nl :: b → ∃ r, b = indent ++ txt "//" ++ r.
Proof.
  intros lib indent desc Hi Hw. eexists. split; [by apply description_exact|]. intros a b. exact (description_continues lib indent desc _ Hi Hw (description_exact lib indent desc Hi Hw) a b).
Qed.
Print Assumptions C67_stays_comment.
(** The comment stays within 80 columns (a tab counted as four) if wrapping keeps to the
    width it is given: 72 bytes for fields, 76 for the processor. *)
Theorem C67_width : ∀ lib indent width columns desc,
  (indent = [tab] ∧ width = 72%Z ∧ columns = 76) ∨ (indent = [] ∧ width = 76%Z ∧ columns = 79) →
  (Z.of_nat (comment_size indent (wrap lib desc width)) <= 2048)%Z →
  Forall (λ l, (Z.of_nat (length l) <= width)%Z) (split_nl (wrap lib desc width)) →
  ∃ c, descriptionToComment lib indent desc = Some c ∧ Forall (λ l, length l ≤ columns) (split_nl c).
Proof.
  intros lib indent width columns desc Hi Hw Hl.
  assert (nl ∉ indent ∧ text_width indent = width ∧ (Z.of_nat (length indent + 3) + width = Z.of_nat columns)%Z ∧ (width <= Z.of_nat columns)%Z) as (Hnl & Ht & Hc & Hc').
  { destruct Hi as [(-> & -> & ->)|(-> & -> & ->)]; (split; [by apply nl_free_dec|]); (split; [vm_compute; reflexivity|]); split; vm_compute; congruence. }
  rewrite <- Ht in Hw, Hl. eexists. split; [by apply description_exact|]. destruct (kept_lines (split_nl (wrap lib desc (text_width indent)))) as (a & b & _ & _ & E).
  pose proof (split_nl_free (wrap lib desc (text_width indent))) as Hf. rewrite E in Hf, Hl. set (ls := drop_last _) in *. clearbody ls. clear E.
  apply Forall_app in Hf as [_ Hf]. apply Forall_app in Hf as [Hf _]. apply Forall_app in Hl as [_ Hl]. apply Forall_app in Hl as [Hl _].
  assert (∀ l, length (trim_right l) ≤ length l) as Htr.
  { intros l. destruct (trim_right_split l) as (ws & _ & E & _). rewrite E at 2. rewrite app_length. lia. }
  assert (Forall (λ l, length l ≤ columns) (map trim_right (comment_lines indent ls))) as Hall.
  { destruct ls as [|l ls]; [apply List.Forall_nil|]. cbn [comment_lines map]. apply Forall_cons in Hl as [Hl Hls]. apply List.Forall_cons.
    - specialize (Htr l). lia.
    - rewrite map_map. apply Forall_forall. intros x Hx. apply elem_of_list_fmap in Hx as (y & -> & Hy). rewrite Forall_forall in Hls. specialize (Hls _ Hy). cbv beta in Hls.
      specialize (Htr ((indent ++ txt "// ") ++ y)). rewrite !app_length in Htr. change (length (txt "// ")) with 3 in Htr. lia. }
  assert (Forall (nl ∉.) (map trim_right (comment_lines indent ls))) as Hfree.
  { pose proof (comment_lines_free indent ls Hnl Hf) as Hcf. apply Forall_forall. intros x Hx. apply elem_of_list_fmap in Hx as (y & -> & Hy). apply trim_right_free. rewrite Forall_forall in Hcf. by apply Hcf. }
  destruct (map trim_right (comment_lines indent ls)) as [|x xs] eqn:E; [apply List.Forall_cons; [cbn; lia|apply List.Forall_nil]|].
  rewrite split_nl_join; [exact Hall|discriminate|exact Hfree].
Qed.
Print Assumptions C67_width.
(** So what is written in descriptions never changes the code of a generated file: two
    definitions that differ only there have the same lines of code. *)
Theorem C67_descriptions_are_no_code : ∀ lib lic name imports p p' include,
  Forall2 same_but_description (p_conf p) (p_conf p') →
  Forall (λ o, (Z.of_nat (comment_size [tab] (wrap lib (o_desc o) (text_width [tab]))) <= 2048)%Z) (p_conf p ++ p_conf p') →
  (Z.of_nat (comment_size [] (wrap lib (p_desc p) (text_width []))) <= 2048)%Z →
  (Z.of_nat (comment_size [] (wrap lib (p_desc p') (text_width []))) <= 2048)%Z →
  ∃ src src', source_text lib lic name imports p include = Some src ∧ source_text lib lic name imports p' include = Some src' ∧
    code_lines src = code_lines src'.
Proof.
  intros lib lic name imports p p' include Hs Ho H1 H2. apply Forall_app in Ho as [Ho Ho']. by apply source_code.
Qed.
Print Assumptions C67_descriptions_are_no_code.
(** In general it is false, whatever the wrapping (as long as ASCII text whose lines all fit
    is left alone): trimTrailingWhitespace keeps slices of the scanner's buffer, which the
    last line overwrites if it starts after byte 2048.  Here it becomes a line of code ... *)
Theorem C67_stays_comment_refuted : ∀ lib, keeps_narrow_text lib →
  ∃ desc a b c, descriptionToComment lib [tab] desc = Some c ∧ c = a ++ nl :: txt "Evil int" ++ nl :: b ∧
    ∀ r, txt "Evil int" ++ nl :: b ≠ tab :: txt "//" ++ r.
Proof.
  intros lib Hlib. destruct (evil_comment lib Hlib) as [rest H]. exists evil_description, (txt "	//"), rest. eexists. split; [exact H|]. split; [reflexivity|].
  intros r Hr. discriminate Hr.
Qed.
Print Assumptions C67_stays_comment_refuted.
(** ... of the generated file. *)
Theorem C67_descriptions_are_no_code_refuted : ∀ lib lic name imports include, keeps_narrow_text lib →
  ∃ p p' src src', Forall2 same_but_description (p_conf p) (p_conf p') ∧ p_desc p = p_desc p' ∧
    source_text lib lic name imports p include = Some src ∧ source_text lib lic name imports p' include = Some src' ∧
    code_lines src ≠ code_lines src'.
Proof.
  intros lib lic name imports include Hlib. destruct (evil_source lib lic name imports include Hlib) as (src & src' & H1 & H2 & H3).
  exists (one_option evil_description), (one_option []), src, src'. split; [|done]. apply List.Forall2_cons; [|apply List.Forall2_nil]. repeat split; reflexivity.
Qed.
Print Assumptions C67_descriptions_are_no_code_refuted.
(** The hypotheses are met: a wrapping that breaks nothing, and a short description. *)
Definition plain_library : library := mkLib (λ t _, t) (λ s, quoted s).
Example C67_library : keeps_narrow_text plain_library.
Proof. intros t w _ _. reflexivity. Qed.
Example C67_example : descriptionToComment plain_library [tab] (txt "
Source field.  
	Required.") = Some (txt "Source field.
	// 	Required.").
Proof.
  rewrite description_exact; [vm_compute; reflexivity|apply tab_free|vm_compute; discriminate].
Qed.

(** ** C68: names and types *)
(** Separators ('.', '_', '@') split a name into words ... *)
Theorem C68_separators : ∀ a s b, s = "."%char ∨ s = "_"%char ∨ s = "@"%char →
  goTypeName (a ++ s :: b) = goTypeName a ++ goTypeName b.
Proof. intros a s b Hs. apply goTypeName_separator. destruct Hs as [->|[->| ->]]; reflexivity. Qed.
Print Assumptions C68_separators.
(** ... and a word of ASCII letters and digits gets a capital first letter, or only capitals
    if it is one of the abbreviations. *)
Theorem C68_words : ∀ c w, Forall (λ c, alnum c = true) (c :: w) →
  goTypeName (c :: w) =
    if bool_decide (map lower (c :: w) ∈ map txt ["id"; "ppid"; "pid"; "pgid"; "mac"; "ip"; "iana"; "uid"; "ecs"; "as"; "icmp"])
    then map upper (c :: w) else upper c :: w.
Proof. intros c w Hw. apply Forall_cons in Hw as [Hc Hw]. by apply goTypeName_word. Qed.
Print Assumptions C68_words.
(** Apart from letter case the Go name is the name without its separators. *)
Theorem C68_letters : ∀ name, Forall (λ c, code c < 128) name →
  map lower (goTypeName name) = map lower (List.filter (λ c, negb (bool_decide (c ∈ txt "._@"))) name).
Proof.
  intros name _. rewrite goTypeName_lower. f_equal. apply filter_ext. intros c. f_equal.
  pose proof (every_ascii (λ c, Bool.eqb (isSeparator c) (bool_decide (c ∈ txt "._@")))) as H. specialize (H ltac:(vm_compute; reflexivity) c).
  by apply Bool.eqb_prop in H.
Qed.
Print Assumptions C68_letters.
(** A name of letters, digits and separators whose first word starts with a letter becomes an
    exported Go identifier. *)
Theorem C68_exported : ∀ ss c rest, Forall (λ s, isSeparator s = true) ss → letter c = true →
  Forall (λ c, alnum c = true ∨ isSeparator c = true) rest →
  ∃ d r, goTypeName (ss ++ c :: rest) = d :: r ∧ is_upper d = true ∧ Forall (λ c, alnum c = true) r.
Proof.
  intros ss c rest Hss Hc Hrest. destruct (goTypeName_first ss c rest Hss Hc) as [r Hr]. exists (upper c), r. split; [done|]. split; [by apply upper_letter|].
  assert (Forall (λ c, alnum c = true) (goTypeName (ss ++ c :: rest))) as H.
  { apply goTypeName_alnum. apply Forall_app. split.
    - eapply Forall_impl; [exact Hss|]. intros x Hx. right. exact Hx.
    - apply List.Forall_cons; [left; unfold alnum; by rewrite Hc|done]. }
  rewrite Hr in H. by apply Forall_cons in H as [_ H].
Qed.
Print Assumptions C68_exported.
(** Different names may become the same, so that a Config struct gets a field twice. *)
Theorem C68_distinct_refuted : ∃ a b, a ≠ b ∧ goTypeName a = goTypeName b.
Proof. exists (txt "source_ip"), (txt "source.ip"). split; [discriminate|vm_compute; reflexivity]. Qed.
Print Assumptions C68_distinct_refuted.
(** The imports: no path twice, and exactly the part before the last dot of the types that
    have one, in any order. *)
Theorem C68_imports : ∀ opts imports, configTypeImports opts imports → NoDup imports ∧
  ∀ i, i ∈ imports ↔ ∃ o n, o ∈ opts ∧ o_type o = i ++ txt "." ++ n ∧ "."%char ∉ n.
Proof. exact imports_spec. Qed.
Print Assumptions C68_imports.
(** So a type dir/base.Name is written base.Name and dir/base is imported; a type without
    dot and slash is written as it is and needs no import. *)
Theorem C68_types : ∀ opts imports o, configTypeImports opts imports → o ∈ opts →
  (∀ dir base n, o_type o = dir ++ txt "/" ++ base ++ txt "." ++ n → "/"%char ∉ base ++ txt "." ++ n → "."%char ∉ n →
    dir ++ txt "/" ++ base ∈ imports ∧ trimImportPrefix (o_type o) = base ++ txt "." ++ n) ∧
  ("/"%char ∉ o_type o → trimImportPrefix (o_type o) = o_type o).
Proof.
  intros opts imports o Hi Ho. destruct (imports_spec opts imports Hi) as [_ H]. split.
  - intros dir base n Ht Hs Hn. split.
    + apply H. exists o, n. split; [done|]. split; [|done]. rewrite Ht. by rewrite <- !app_assoc.
    + rewrite Ht. by apply (trimImportPrefix_path dir (base ++ txt "." ++ n)).
  - apply trimImportPrefix_plain.
Qed.
Print Assumptions C68_types.
(** A list of such a type loses its brackets, which end up in the import. *)
Theorem C68_types_refuted : ∀ imports, configTypeImports [mkOpt (txt "a") (txt "[]net/netip.Addr") false false None []] imports →
  imports = [txt "[]net/netip"] ∧ trimImportPrefix (txt "[]net/netip.Addr") = txt "netip.Addr".
Proof.
  intros imports Hi. unfold configTypeImports in Hi.
  assert (import_keys [mkOpt (txt "a") (txt "[]net/netip.Addr") false false None []] [] = [txt "[]net/netip"]) as E by (vm_compute; reflexivity).
  rewrite E in Hi. split; [|vm_compute; reflexivity]. by apply Permutation_singleton_r in Hi.
Qed.
Print Assumptions C68_types_refuted.
(** The code of the generated file, if descriptions are short ([struct_lines]: the fields with
    a blank line between; [head_lines], [tail_lines]: the lines before and after): one field
    for each option, in order, with its Go name, type, key in the configuration and, if
    required, the validation; InitDefaults sets each option that has a default and nothing
    else; the imports; and the processor registered under its name, with its type New, Config
    and String and, if asked for, Process. *)
Theorem C68_fields : ∀ lib lic name imports p include,
  Forall (λ o, (Z.of_nat (comment_size [tab] (wrap lib (o_desc o) (text_width [tab]))) <= 2048)%Z) (p_conf p) →
  (Z.of_nat (comment_size [] (wrap lib (p_desc p) (text_width []))) <= 2048)%Z →
  nl ∉ name → nl ∉ goTypeName name → Forall (nl ∉.) imports →
  Forall (λ o, (∃ c rest, o_name o = c :: rest ∧ letter c = true ∧ Forall (λ c, alnum c = true ∨ isSeparator c = true) rest) ∧
    nl ∉ o_type o ∧ nl ∉ default_line lib o) (p_conf p) →
  let t := goTypeName name in
  ∃ src, source_text lib lic name imports p include = Some src ∧ code_lines src =
    code_lines lic ++ [[]; txt "package " ++ map lower name; []; txt "import ("; []] ++ map (λ i, txt "    """ ++ i ++ txt """") imports ++
    [txt "    ""github.com/andrewkroh/go-sawmill/pkg/processor"""; txt "    ""github.com/andrewkroh/go-sawmill/pkg/processor/registry"""; txt ")"; [];
     txt "func init() {"; txt "    registry.MustRegister(processorName, New)"; txt "}"; [];
     txt "const ("; txt "    processorName = """ ++ name ++ txt """"; txt ")"; []] ++
    struct_lines (map (λ o, txt "    " ++ goTypeName (o_name o) ++ txt " " ++ trimImportPrefix (o_type o) ++ txt " `config:""" ++ o_name o ++ txt """" ++
      (if o_required o then txt " validate:""required""" else []) ++ txt "`") (p_conf p)) ++
    [[]; txt "func (c *Config) InitDefaults() {"] ++
    map (λ o, txt "    c." ++ goTypeName (o_name o) ++ txt " = " ++
      match o_default o with Some (DString s) => quote lib s | Some (DOther t _) => t | None => [] end)
      (List.filter (λ o, bool_decide (o_default o ≠ None)) (p_conf p)) ++ [txt "}"] ++
    [[]; txt "type " ++ t ++ txt " struct {"; txt "    config Config"; txt "}"; [];
     txt "func New(config Config) (*" ++ t ++ txt ", error) {"; txt "    return &" ++ t ++ txt "{config: config}, nil"; txt "}"; [];
     txt "func (p *" ++ t ++ txt ") Config() Config {"; txt "    return p.config"; txt "}"; [];
     txt "func (p *" ++ t ++ txt ") String() string {"; txt "    return processor.ConfigString(processorName, p.config)"; txt "}"; []] ++
    (if include then [[]; txt "func (p *" ++ t ++ txt ") Process(event processor.Event) error {"; txt "    return nil"; txt "}"] else []) ++ [[]; []].
Proof.
  intros lib lic name imports p include H1 H2 H3 H4 H5 H6. destruct (source_lines lib lic name imports p include H1 H2 H3 H4 H5 H6) as (src & Hs & Hc).
  exists src. split; [exact Hs|]. rewrite Hc. unfold head_lines. rewrite <- !app_assoc. reflexivity.
Qed.
Print Assumptions C68_fields.
Example C68_fields_example : ∃ src, source_text plain_library [] (txt "lowercase") []
    (mkProc (txt "Lower.") [mkOpt (txt "field") (txt "string") true false None (txt "Source
field."); mkOpt (txt "ignore_missing") (txt "bool") false true (Some (DOther (txt "false") false)) []]) true = Some src ∧
  code_lines src = map txt [""; ""; "package lowercase"; ""; "import ("; ""; "    ""github.com/andrewkroh/go-sawmill/pkg/processor""";
    "    ""github.com/andrewkroh/go-sawmill/pkg/processor/registry"""; ")"; ""; "func init() {"; "    registry.MustRegister(processorName, New)"; "}"; "";
    "const ("; "    processorName = ""lowercase"""; ")"; "";
    "type Config struct {"; "    Field string `config:""field"" validate:""required""`"; ""; "    IgnoreMissing bool `config:""ignore_missing""`"; "}"; "";
    "func (c *Config) InitDefaults() {"; "    c.IgnoreMissing = false"; "}"; "";
    "type Lowercase struct {"; "    config Config"; "}"; ""; "func New(config Config) (*Lowercase, error) {"; "    return &Lowercase{config: config}, nil"; "}"; "";
    "func (p *Lowercase) Config() Config {"; "    return p.config"; "}"; "";
    "func (p *Lowercase) String() string {"; "    return processor.ConfigString(processorName, p.config)"; "}"; "";
    ""; "func (p *Lowercase) Process(event processor.Event) error {"; "    return nil"; "}"; ""; ""].
Proof.
  set (p := mkProc _ _). destruct (C68_fields plain_library [] (txt "lowercase") [] p true) as (src & Hs & Hc).
  - repeat (apply List.Forall_cons; [vm_compute; discriminate|]). apply List.Forall_nil.
  - vm_compute; discriminate.
  - by apply nl_free_dec.
  - by apply nl_free_dec.
  - apply List.Forall_nil.
  - assert (∀ n, Forall (λ c, alnum c = true ∨ isSeparator c = true) n ↔ forallb (λ c, alnum c || isSeparator c) n = true) as Hf.
    { intros n. rewrite forallb_forall, List.Forall_forall. split; intros H x Hx; [apply orb_true_iff|apply orb_true_iff]; by apply H. }
    repeat (apply List.Forall_cons; [split; [eexists _, _; split; [reflexivity|]; split; [reflexivity|apply Hf; vm_compute; reflexivity]|
      split; apply nl_free_dec; vm_compute; reflexivity]|]). apply List.Forall_nil.
  - exists src. split; [exact Hs|]. rewrite Hc. vm_compute. reflexivity.
Qed.
Example C68_example : goTypeName (txt "source_ip") = txt "SourceIP" ∧ goTypeName (txt "@timestamp") = txt "Timestamp" ∧
  configTypeImports [mkOpt (txt "value") (txt "github.com/andrewkroh/go-sawmill/pkg/config.EventValue") true false None []]
    [txt "github.com/andrewkroh/go-sawmill/pkg/config"].
Proof. split; [vm_compute; reflexivity|]. split; [vm_compute; reflexivity|]. apply Permutation_refl'. vm_compute. reflexivity. Qed.

(** ** C69: regeneration *)
(** [gofmt] and [find_process] (a parser that looks for a function Process; [None]: a syntax
    error) are any functions that agree with the template ([reads_back]): a generated file
    has Process exactly if the template was told to write it. *)
(** A run touches the files of the processors in the YAML file only. *)
Theorem C69_other_files : ∀ gofmt find_process lib lic fs ps fs' completed name,
  generator_run gofmt find_process lib lic fs ps fs' completed → name ∉ map fst ps → fs' name = fs name.
Proof. intros. by eapply run_other. Qed.
Print Assumptions C69_other_files.
(** Generated files over time: any runs with any processors, completed or not, and any
    changes to the files of other processors. *)
Inductive history (gofmt : list ascii → option (list ascii)) (find_process : list ascii → option bool) (lib : library) (lic name : list ascii) : files → files → Prop :=
| hist_none fs : history gofmt find_process lib lic name fs fs
| hist_run fs ps fs1 fs2 completed : generator_run gofmt find_process lib lic fs ps fs1 completed →
    history gofmt find_process lib lic name fs1 fs2 → history gofmt find_process lib lic name fs fs2
| hist_edit fs fs1 fs2 : fs1 name = fs name → history gofmt find_process lib lic name fs1 fs2 → history gofmt find_process lib lic name fs fs2.
(** Once Process has been moved out of a generated file it never comes back ... *)
Theorem C69_process_stays_away : ∀ gofmt find_process lib lic name fs fs' src, reads_back gofmt find_process lib lic →
  history gofmt find_process lib lic name fs fs' → fs name = Some src → find_process src = Some false →
  ∃ src', fs' name = Some src' ∧ find_process src' = Some false.
Proof.
  intros gofmt find_process lib lic name fs fs' src Hrb Hh Hs Hf.
  assert (include_process find_process (fs' name) = include_process find_process (fs name)) as E.
  { clear Hs Hf. induction Hh as [fs|fs ps fs1 fs2 d Hr _ IH|fs fs1 fs2 He _ IH]; [reflexivity| |].
    - rewrite IH. exact (run_include gofmt find_process lib lic fs ps fs1 d name Hrb Hr).
    - by rewrite IH, He. }
  rewrite Hs in E. cbn [include_process] in E. rewrite Hf in E. destruct (fs' name) as [src'|]; [|discriminate E]. exists src'. split; [reflexivity|].
  cbn [include_process] in E. destruct (find_process src') as [[]|]; [discriminate E|reflexivity|discriminate E].
Qed.
Print Assumptions C69_process_stays_away.
(** ... and a processor whose file is missing, does not parse or has Process gets one. *)
Theorem C69_process_written : ∀ gofmt find_process lib lic fs name p fs', reads_back gofmt find_process lib lic →
  generated gofmt find_process lib lic fs name p fs' → (∀ src, fs name = Some src → find_process src ≠ Some false) →
  ∃ src', fs' name = Some src' ∧ find_process src' = Some true.
Proof.
  intros gofmt find_process lib lic fs name p fs' Hrb (conf & imports & src & out & _ & _ & Hs & Ho & ->) Hn. exists out. split; [apply write_file_same|].
  rewrite (Hrb _ _ _ _ _ _ Hs Ho). f_equal. unfold include_process. destruct (fs name) as [src0|]; [|reflexivity].
  specialize (Hn src0 eq_refl). destruct (find_process src0) as [[]|]; [reflexivity|done|reflexivity].
Qed.
Print Assumptions C69_process_written.
(** Running the generator again changes nothing, in whatever order maps are visited, if no
    processor and no option of one is listed twice. *)
Theorem C69_idempotent : ∀ gofmt find_process lib lic fs ps ps' fs1 fs2, reads_back gofmt find_process lib lic → sorts_imports gofmt lib lic →
  NoDup (map fst ps) → Forall (λ x, NoDup (map o_name (p_conf (snd x)))) ps → ps' ≡ₚ ps →
  generator_run gofmt find_process lib lic fs ps fs1 true → generator_run gofmt find_process lib lic fs1 ps' fs2 true →
  ∀ name, fs2 name = fs1 name.
Proof. exact run_twice. Qed.
Print Assumptions C69_idempotent.
(** The hypotheses are met: a formatter that keeps only the third byte from the end. *)
Definition toy_gofmt (src : list ascii) : option (list ascii) :=
  match rev src with _ :: _ :: c :: _ => Some [c] | _ => None end.
Definition toy_find (src : list ascii) : option bool := match src with [c] => Some (negb (Ascii.eqb c nl)) | _ => None end.
Lemma toy_formats lib lic name imports p include src : source_text lib lic name imports p include = Some src →
  toy_gofmt src = Some [if include then "}"%char else nl].
Proof.
  unfold source_text. destruct (fields_text lib (p_conf p)) as [fs|]; [|done]. destruct (descriptionToComment lib [] (p_desc p)) as [c|]; [|done].
  intros E. apply (inj Some) in E. subst src. unfold toy_gofmt.
  assert (∃ b, tail_text name include = b ++ [(if include then "}"%char else nl); nl; nl]) as [b ->].
  { unfold tail_text. destruct include; cbv zeta; eexists; rewrite !app_assoc.
    - rewrite <- (app_assoc _ (ln "}") [nl]). reflexivity.
    - rewrite app_nil_r. change (ln "}") with (txt "}" ++ [nl]). rewrite !app_assoc. rewrite <- (app_assoc _ [nl] [nl]), <- (app_assoc _ [nl] [nl; nl]). reflexivity. }
  assert (∀ x1 x2 x3 x4 x5 x6 x7 y z : list ascii, x1 ++ x2 ++ x3 ++ x4 ++ x5 ++ x6 ++ x7 ++ y ++ z = (x1 ++ x2 ++ x3 ++ x4 ++ x5 ++ x6 ++ x7 ++ y) ++ z) as ->.
  { intros. by rewrite <- !app_assoc. }
  rewrite rev_app_distr. reflexivity.
Qed.
Example C69_reads_back : ∀ lib lic, reads_back toy_gofmt toy_find lib lic ∧ sorts_imports toy_gofmt lib lic.
Proof.
  intros lib lic. split.
  - intros name imports p include src out Hs Ho. rewrite (toy_formats _ _ _ _ _ _ _ Hs) in Ho. injection Ho as <-. by destruct include.
  - intros name imports imports' p include src src' _ Hs Hs'. by rewrite (toy_formats _ _ _ _ _ _ _ Hs), (toy_formats _ _ _ _ _ _ _ Hs').
Qed.
Example C69_example : ∃ fs1 fs2, generator_run toy_gofmt toy_find plain_library [] (λ _, None) [(txt "x", one_option (txt "A field."))] fs1 true ∧
  generator_run toy_gofmt toy_find plain_library [] fs1 [(txt "x", one_option (txt "A field."))] fs2 true ∧ fs1 (txt "x") = Some (txt "}").
Proof.
  assert (∀ fs, ∃ fs1, generator_run toy_gofmt toy_find plain_library [] fs [(txt "x", one_option (txt "A field."))] fs1 true ∧
    fs1 = write_file fs (txt "x") [if include_process toy_find (fs (txt "x")) then "}"%char else nl]) as H.
  { intros fs. set (p := one_option (txt "A field.")).
    destruct (source_code plain_library [] (txt "x") [] p p (include_process toy_find (fs (txt "x")))) as (src & _ & Hs & _ & _).
    - apply List.Forall2_cons; [|apply List.Forall2_nil]. repeat split; reflexivity.
    - apply List.Forall_cons; [vm_compute; discriminate|apply List.Forall_nil].
    - apply List.Forall_cons; [vm_compute; discriminate|apply List.Forall_nil].
    - vm_compute; discriminate.
    - vm_compute; discriminate.
    - eexists. split; [|reflexivity]. eapply run_next; [|apply run_end]. exists (p_conf p), [], src. eexists. split; [|split; [|split; [|split]]].
      + split; [reflexivity|]. apply SSorted_cons; [apply SSorted_nil|apply List.Forall_nil].
      + apply Permutation_refl'. vm_compute. reflexivity.
      + exact Hs.
      + exact (toy_formats _ _ _ _ _ _ _ Hs).
      + reflexivity. }
  destruct (H (λ _, None)) as (fs1 & R1 & E1). destruct (H fs1) as (fs2 & R2 & _). exists fs1, fs2. split; [exact R1|]. split; [exact R2|].
  rewrite E1, write_file_same. reflexivity.
Qed.

(** ** C70: the documentation *)
(** [bar] is "|"; [padded c] is [c] between two spaces. *)
(** An option is one row of six cells, whatever its description: if the name, type and
    default have no newline, it is one line, and if no part has a bar, its cells can be read
    off in one way only. *)
Theorem C70_row : ∀ o, "010"%char ∉ o_name o ++ o_type o ++ doc_default (o_default o) →
  (∃ line, doc_row o = line ++ ["010"%char] ∧ "010"%char ∉ line) ∧
  ("|"%char ∉ o_name o ++ o_type o ++ doc_default (o_default o) ++ o_desc o →
   ∀ cs, Forall ("|"%char ∉.) cs → "|"%char :: concat (map (λ c, c ++ ["|"%char]) cs) ++ ["010"%char] = doc_row o →
   cs = map padded [o_name o; if o_required o then txt "x" else []; if o_optional o then txt "x" else [];
     if bool_decide (o_type o = txt "github.com/andrewkroh/go-sawmill/pkg/config.EventValue") then txt "any"
     else if bool_decide (o_type o = txt "map[string]interface{}") then txt "map" else o_type o;
     doc_default (o_default o); map (λ c, if Ascii.eqb c "010" then " "%char else c) (o_desc o)]).
Proof.
  intros o Hnl. rewrite !not_elem_of_app in Hnl. destruct Hnl as (N1 & N2 & N3). rewrite doc_row_cells. split.
  - eexists. split; [reflexivity|]. unfold row_cells. change "010"%char with nl in *.
    assert (∀ l, nl ∉ l → nl ∉ padded l ++ [bar]) as Hp.
    { intros l Hl. unfold padded. apply not_elem_of_cons. split; [apply (bool_decide_eq_true_1 _); vm_compute; reflexivity|]. rewrite !not_elem_of_app.
      split; [split; [done|]|]; apply (bool_decide_eq_true_1 _); vm_compute; reflexivity. }
    cbn [map concat]. apply not_elem_of_cons. split; [apply (bool_decide_eq_true_1 _); vm_compute; reflexivity|].
    assert (nl ∉ txt "x") as Hx by (apply (bool_decide_eq_true_1 _); vm_compute; reflexivity).
    assert (nl ∉ txt "anymap") as Hy by (apply (bool_decide_eq_true_1 _); vm_compute; reflexivity).
    repeat (apply not_elem_of_app; split; [apply Hp|]); [done|by apply boolToX_free|by apply boolToX_free|by apply goType_free|done|apply one_line_free|apply not_elem_of_nil].
  - intros Hb cs Hcs E. change "|"%char with bar in *. change "010"%char with nl in *. rewrite !not_elem_of_app in Hb. destruct Hb as (B1 & B2 & B3 & B4).
    apply (f_equal (@tail ascii)) in E. unfold row_cells in E. cbn [app tail] in E.
    assert (bar ∉ txt "x") as Hx by (apply (bool_decide_eq_true_1 _); vm_compute; reflexivity).
    assert (bar ∉ txt "anymap") as Hy by (apply (bool_decide_eq_true_1 _); vm_compute; reflexivity).
    apply row_unique; [|done|].
    + cbn [map]. repeat (apply List.Forall_cons; [apply padded_bar|]); [done|by apply boolToX_free|by apply boolToX_free|by apply goType_free|done| |apply List.Forall_nil].
      apply one_line_bar; [discriminate|done].
    + rewrite map_map. exact E.
Qed.
Print Assumptions C70_row.
(** The default shown is the default, unless it is a false value (false, 0, "", empty). *)
Theorem C70_default : ∀ o, match o_default o with
  | None => doc_default (o_default o) = []
  | Some (DString s) => doc_default (o_default o) = s
  | Some (DOther shown truth) => truth = true → doc_default (o_default o) = shown
  end.
Proof. intros [n t r q [[s|s b]|] d]; cbn [o_default doc_default]; [reflexivity|by intros ->|reflexivity]. Qed.
Print Assumptions C70_default.
(** A false value is set by InitDefaults but not shown: the row is that of an option without
    default. *)
Theorem C70_default_refuted : ∃ o o', o_default o = Some (DOther (txt "false") false) ∧ o_default o' = None ∧
  selectDefaults [o; o'] = [o] ∧ doc_row o = doc_row o'.
Proof.
  exists (mkOpt (txt "ignore_missing") (txt "bool") false true (Some (DOther (txt "false") false)) (txt "Quietly.")),
    (mkOpt (txt "ignore_missing") (txt "bool") false true None (txt "Quietly.")). repeat split; reflexivity.
Qed.
Print Assumptions C70_default_refuted.
(** If every map of the processors list has one key, the README has a section for each
    processor, its options sorted by name, in the order of the names, and no other. *)
Theorem C70_sections : ∀ intro maps text, readme intro maps text → Forall (λ m, length m = 1) maps →
  ∃ es, text = intro ++ txt "## Processors" ++ [nl] ++ concat (map (λ e, nl :: txt "- [" ++ fst e ++ txt "](#" ++ fst e ++ txt ")") es) ++
      [nl; nl] ++ concat (map (λ e, nl :: doc_section (fst e) (snd e)) es) ++ [nl] ∧ StronglySorted (λ a b, text_le (fst a) (fst b) = true) es ∧
    Permutation (map fst es) (map fst (concat maps)) ∧
    ∀ name p, (name, p) ∈ concat maps → ∃ conf a b, conf ≡ₚ p_conf p ∧
      StronglySorted (λ o o', text_le (o_name o) (o_name o') = true) conf ∧ text = a ++ txt "### " ++ name ++ [nl; nl] ++ p_desc p ++ [nl; nl] ++
        ln "| Option | Required | Optional | Type | Default | Description |" ++
        ln "|--------|----------|----------|------|---------|-------------|" ++ concat (map doc_row conf) ++ b.
Proof.
  intros intro maps text (es & (es0 & Hall & Hp & Hs) & ->) Hone. exists es. split; [unfold readme_text, ln; rewrite <- app_assoc; reflexivity|]. split; [exact Hs|].
  assert (List.filter (λ m, match m with [] => false | _ => true end) maps = maps) as Ef.
  { clear -Hone. induction Hone as [|m maps Hm _ IH]; [done|]. cbn [List.filter]. destruct m; [discriminate Hm|]. by rewrite IH. }
  rewrite Ef in Hall.
  assert (map fst es0 = map fst (concat maps) ∧ ∀ name p, (name, p) ∈ concat maps → ∃ e, e ∈ es0 ∧ fst e = name ∧ p_desc (snd e) = p_desc p ∧ sorted_options (p_conf p) (p_conf (snd e))) as [H1 H2].
  { clear -Hall Hone. induction Hall as [|m e maps es0 (p0 & Hin & Hd & Hso) _ IH].
    - split; [done|]. intros name p Hin. by apply elem_of_nil in Hin.
    - apply Forall_cons in Hone as [Hm Hone]. destruct (IH Hone) as [I1 I2]. destruct m as [|x [|]]; [discriminate Hm| |discriminate Hm].
      apply elem_of_list_singleton in Hin. subst x. split.
      + cbn [map concat app fst]. by rewrite I1.
      + intros name p Hin. cbn [concat app] in Hin. apply elem_of_cons in Hin as [E|Hin].
        * injection E as -> ->. exists e. split; [by left|done].
        * destruct (I2 name p Hin) as (e' & He' & Hr). exists e'. split; [by right|done]. }
  split; [rewrite <- H1; by rewrite Hp|]. intros name p Hin. destruct (H2 name p Hin) as (e & He & Hn & Hd & Hso).
  exists (p_conf (snd e)). rewrite <- Hp in He. apply elem_of_list_split in He as (e1 & e2 & ->). destruct e as [n0 [d0 c0]]. cbn [fst snd p_desc p_conf] in *. subst n0 d0.
  unfold readme_text. set (l := concat (map _ (e1 ++ (name, mkProc (p_desc p) c0) :: e2))). clearbody l.
  exists (intro ++ ln "## Processors" ++ l ++ [nl; nl] ++ concat (map (λ e, nl :: doc_section (fst e) (snd e)) e1) ++ [nl]).
  exists (nl :: concat (map (λ e, nl :: doc_section (fst e) (snd e)) e2) ++ [nl]). destruct Hso as [Hso1 Hso2]. split; [exact Hso1|]. split; [exact Hso2|].
  rewrite map_app, concat_app. cbn [map concat fst snd]. unfold doc_section at 2. cbn [p_desc p_conf].
  set (u1 := ln "| Option | Required | Optional | Type | Default | Description |"). set (u2 := ln "|--------|----------|----------|------|---------|-------------|").
  clearbody u1 u2. do 12 (rewrite <- ?app_assoc; cbn [app]). reflexivity.
Qed.
Print Assumptions C70_sections.
(** A map with two keys: one of the processors may be left out. *)
Theorem C70_sections_refuted : ∀ intro name desc y, ∃ text,
  readme intro [[(name, mkProc desc []); y]] text ∧ readme intro [[(name, mkProc desc [])]] text.
Proof.
  intros intro name desc y. exists (readme_text intro [(name, mkProc desc [])]).
  assert (∀ m, (name, mkProc desc []) ∈ m → m ≠ [] → readme intro [m] (readme_text intro [(name, mkProc desc [])])) as H.
  { intros m Hm Hne. exists [(name, mkProc desc [])]. split; [|reflexivity]. exists [(name, mkProc desc [])]. split; [|split; [reflexivity|]].
    - cbn [List.filter]. destruct m as [|e m]; [done|]. apply List.Forall2_cons; [|apply List.Forall2_nil]. exists (mkProc desc []).
      split; [exact Hm|]. split; [reflexivity|]. split; [reflexivity|apply SSorted_nil].
    - apply SSorted_cons; [apply SSorted_nil|apply List.Forall_nil]. }
  split; apply H; [by left|done|by left|done].
Qed.
Print Assumptions C70_sections_refuted.
Example C70_example : doc_row (mkOpt (txt "field") (txt "string") true false None (txt "Source
field.")) = txt "| field | x |  | string |  | Source field. |
" ∧ ∃ text, readme (txt "# x") [[(txt "lowercase", mkProc (txt "d") [])]] text.
Proof.
  split; [vm_compute; reflexivity|]. destruct (C70_sections_refuted (txt "# x") (txt "lowercase") (txt "d") (txt "y", mkProc [] [])) as (text & _ & H). by exists text.
Qed.
