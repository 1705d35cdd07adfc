(** * The generators: internal/proctemplate, pkg/processor/generate, docs/generate.

    Text is a list of bytes.  Taken as arguments, so that the theorems hold for every
    choice: go-wordwrap's WrapString, strconv.Quote and fmt's %v (record [library]), gofmt
    and go/parser (Section [generate]). *)
From Verif Require Export Scanner.
From Coq Require Import Sorting.Sorted.
From Coq Require Import Lia.
Local Open Scope nat_scope.

Definition txt (s : string) : list ascii := list_ascii_of_string s.
Definition dot : ascii := "."%char.
Definition slash : ascii := "/"%char.
Definition space : ascii := " "%char.
Definition tab : ascii := Ascii.ascii_of_nat 9.
Definition quote1 : ascii := Ascii.ascii_of_nat 34.
Definition backquote : ascii := "`"%char.

(** ** internal/proctemplate/funcs.go *)
(** strings.Split(text, "\n") *)
Fixpoint split_nl (l : list ascii) : list (list ascii) :=
  match l with
  | [] => [[]]
  | c :: l' =>
      if Ascii.eqb c nl then [] :: split_nl l'
      else match split_nl l' with [] => [[c]] | x :: xs => (c :: x) :: xs end
  end.
(** strings.Join, bytes.Join *)
Fixpoint join (sep : list ascii) (ls : list (list ascii)) : list ascii :=
  match ls with
  | [] => []
  | [l] => l
  | l :: ls' => l ++ sep ++ join sep ls'
  end.
(** bytes.TrimRightFunc(b, unicode.IsSpace) *)
Definition trim_right (l : list ascii) : list ascii :=
  rev (strip (map (@rev ascii) spaces) (length l) (rev l)).
(** funcs.go:64-74 trimTrailingWhitespace.  Each element of lines is a slice of the
    scanner's buffer, shortened to what TrimRightFunc left of it at the time; its bytes are
    read by bytes.Join after the last Scan.  bytes.Buffer delivers as much as fits. *)
Definition kept (tok : slice * list ascii) : slice :=
  mkSlice (sl_buf (fst tok)) (sl_off (fst tok)) (length (trim_right (snd tok))).
Definition trimTrailingWhitespace (text : list ascii) : option (list ascii) :=
  match scan_buffered text [] with
  | Some (toks, s, false) => Some (join [nl] (map (λ tok, bytes_of (buffers s) (kept tok)) toks))
  | _ => None
  end.
(** WrapString(text, width), Quote, Sprintf("%v", ...) of a default that is not a string. *)
Record library : Type := mkLib {
  wrap : list ascii → Z → list ascii;
  quote : list ascii → list ascii
}.
(** strings.Replace(indent, "\t", "    ", 4) *)
Fixpoint untab (n : nat) (l : list ascii) : list ascii :=
  match n, l with
  | S n', c :: l' => if Ascii.eqb c tab then txt "    " ++ untab n' l' else c :: untab n l'
  | _, _ => l
  end.
(** funcs.go:46-62 descriptionToComment.  uint(textLength) of a negative length wraps. *)
Definition text_width (indent : list ascii) : Z :=
  ((80 - Z.of_nat (length (untab 4 indent ++ txt " // "))) mod 2 ^ 64)%Z.
Definition blank (l : list ascii) : bool := match trim l with [] => true | _ => false end.
Definition drop_first (ls : list (list ascii)) : list (list ascii) :=
  match ls with
  | l :: ls' => if blank l then ls' else ls
  | [] => []
  end.
Definition drop_last (ls : list (list ascii)) : list (list ascii) :=
  match rev ls with
  | l :: ls' => if blank l then rev ls' else ls
  | [] => []
  end.
Definition descriptionToComment (lib : library) (indent desc : list ascii) : option (list ascii) :=
  let lines := split_nl (wrap lib desc (text_width indent)) in
  trimTrailingWhitespace (join (nl :: indent ++ txt "// ") (drop_last (drop_first lines))).
(** funcs.go:96-108 isSeparator *)
Definition isSeparator (c : ascii) : bool := Ascii.eqb c dot || Ascii.eqb c "_" || Ascii.eqb c "@".
(** strings.FieldsFunc(name, isSeparator) *)
Fixpoint fields_func (l cur : list ascii) : list (list ascii) :=
  match l with
  | [] => match cur with [] => [] | _ => [rev cur] end
  | c :: l' =>
      if isSeparator c then match cur with [] => fields_func l' [] | _ => rev cur :: fields_func l' [] end
      else fields_func l' (c :: cur)
  end.
(** Letters and digits of ASCII; strings.ToLower, strings.ToUpper and strings.Title are
    modelled on ASCII text (the other bytes are left alone and count as letters). *)
Definition code (c : ascii) : nat := nat_of_ascii c.
Definition is_upper (c : ascii) : bool := (65 <=? code c) && (code c <=? 90).
Definition is_lower (c : ascii) : bool := (97 <=? code c) && (code c <=? 122).
Definition is_digit (c : ascii) : bool := (48 <=? code c) && (code c <=? 57).
Definition lower (c : ascii) : ascii := if is_upper c then ascii_of_nat (code c + 32) else c.
Definition upper (c : ascii) : ascii := if is_lower c then ascii_of_nat (code c - 32) else c.
Definition word_char (c : ascii) : bool :=
  is_upper c || is_lower c || is_digit c || Ascii.eqb c "_" || (128 <=? code c).
(** strings.Title: [start]: the previous character ends a word. *)
Fixpoint title (start : bool) (l : list ascii) : list ascii :=
  match l with
  | [] => []
  | c :: l' => (if start then upper c else c) :: title (negb (word_char c)) l'
  end.
(** funcs.go:86-94 abbreviations *)
Definition known_abbreviations : list (list ascii) :=
  map txt ["id"; "ppid"; "pid"; "pgid"; "mac"; "ip"; "iana"; "uid"; "ecs"; "as"; "icmp"].
Definition abbreviations (w : list ascii) : list ascii :=
  if bool_decide (map lower w ∈ known_abbreviations) then map upper w else w.
(** funcs.go:76-84 goTypeName *)
Definition goTypeName (name : list ascii) : list ascii :=
  concat (map (λ w, title true (abbreviations w)) (fields_func name [])).
(** strings.LastIndex(s, c): what is before and after the last [c]. *)
Fixpoint last_index (c : ascii) (l : list ascii) : option (list ascii * list ascii) :=
  match l with
  | [] => None
  | d :: l' =>
      match last_index c l' with
      | Some (a, b) => Some (d :: a, b)
      | None => if Ascii.eqb d c then Some ([], l') else None
      end
  end.
(** schema.go:37-44 ConfigurationOption; a default is a string, or another value with its
    %v text and whether text/template takes it for true. *)
Inductive default_value : Type :=
| DString (s : list ascii)
| DOther (shown : list ascii) (truth : bool).
Record option_def : Type := mkOpt {
  o_name : list ascii; o_type : list ascii; o_required : bool; o_optional : bool;
  o_default : option default_value; o_desc : list ascii
}.
(** schema.go:32-35 Processor *)
Record proc_def : Type := mkProc { p_desc : list ascii; p_conf : list option_def }.
(** funcs.go:110-118 selectDefaults *)
Definition selectDefaults (opts : list option_def) : list option_def :=
  List.filter (λ o, match o_default o with None => false | _ => true end) opts.
(** funcs.go:120-127 quoteStrings *)
Definition quoteStrings (lib : library) (d : default_value) : list ascii :=
  match d with DString s => quote lib s | DOther t _ => t end.
(** funcs.go:129-146 configTypeImports: the keys of the map, then any order of them. *)
Fixpoint import_keys (opts : list option_def) (seen : list (list ascii)) : list (list ascii) :=
  match opts with
  | [] => seen
  | o :: opts' =>
      match last_index dot (o_type o) with
      | None => import_keys opts' seen
      | Some (p, _) => import_keys opts' (if bool_decide (p ∈ seen) then seen else p :: seen)
      end
  end.
Definition configTypeImports (opts : list option_def) (imports : list (list ascii)) : Prop :=
  imports ≡ₚ import_keys opts [].
(** funcs.go:148-154 trimImportPrefix *)
Definition trimImportPrefix (t : list ascii) : list ascii :=
  match last_index slash t with None => t | Some (_, b) => b end.

(** ** pkg/processor/generate: assets/processor.go.gotmpl *)
Definition ln (s : string) : list ascii := txt s ++ [nl].
Definition quoted (l : list ascii) : list ascii := quote1 :: l ++ [quote1].
(** processor.go.gotmpl:7-9 *)
Definition import_text (i : list ascii) : list ascii := nl :: txt "    " ++ quoted i.
(** processor.go.gotmpl:24-27, [c] the comment *)
Definition field_text (o : option_def) (c : list ascii) : list ascii :=
  nl :: txt "    // " ++ c ++ nl :: txt "    " ++ goTypeName (o_name o) ++ space :: trimImportPrefix (o_type o) ++
  space :: backquote :: txt "config:" ++ quoted (o_name o) ++ (if o_required o then txt " validate:" ++ quoted (txt "required") else []) ++
  backquote :: [nl].
(** processor.go.gotmpl:33 *)
Definition default_text (lib : library) (o : option_def) : list ascii :=
  nl :: txt "    c." ++ goTypeName (o_name o) ++ txt " = " ++
  match o_default o with Some d => quoteStrings lib d | None => [] end.
Fixpoint fields_text (lib : library) (opts : list option_def) : option (list ascii) :=
  match opts with
  | [] => Some []
  | o :: opts' =>
      match descriptionToComment lib [tab] (o_desc o), fields_text lib opts' with
      | Some c, Some t => Some (field_text o c ++ t)
      | _, _ => None
      end
  end.
(** processor.go.gotmpl:1-23 *)
Definition head_text (lic name : list ascii) (imports : list (list ascii)) : list ascii :=
  lic ++ [nl; nl] ++ ln "// Code generated by processor/generate.go - DO NOT EDIT." ++
  txt "package " ++ map lower name ++ [nl; nl] ++ ln "import (" ++ concat (map import_text imports) ++ [nl] ++
  txt "    " ++ quoted (txt "github.com/andrewkroh/go-sawmill/pkg/processor") ++ [nl] ++
  txt "    " ++ quoted (txt "github.com/andrewkroh/go-sawmill/pkg/processor/registry") ++ [nl] ++ ln ")" ++ [nl] ++
  ln "func init() {" ++ ln "    registry.MustRegister(processorName, New)" ++ ln "}" ++ [nl] ++
  ln "const (" ++ txt "    processorName = " ++ quoted name ++ [nl] ++ ln ")" ++ [nl] ++
  txt "// Config contains the configuration options for the " ++ name ++ ln " processor." ++ txt "type Config struct {".
(** processor.go.gotmpl:28-34 *)
Definition defaults_text (lib : library) (opts : list option_def) : list ascii :=
  ln "}" ++ [nl] ++ ln "// InitDefaults initializes the configuration options to their default values." ++
  txt "func (c *Config) InitDefaults() {" ++ concat (map (default_text lib) (selectDefaults opts)) ++ [nl] ++ ln "}".
(** processor.go.gotmpl:37-60 *)
Definition tail_text (name : list ascii) (include : bool) : list ascii :=
  let t := goTypeName name in
  txt "type " ++ t ++ ln " struct {" ++ ln "    config Config" ++ ln "}" ++ [nl] ++
  txt "// New returns a new " ++ t ++ ln " processor." ++
  txt "func New(config Config) (*" ++ t ++ ln ", error) {" ++ txt "    return &" ++ t ++ ln "{config: config}, nil" ++ ln "}" ++ [nl] ++
  txt "// Config returns the " ++ t ++ ln " processor config." ++
  txt "func (p *" ++ t ++ ln ") Config() Config {" ++ ln "    return p.config" ++ ln "}" ++ [nl] ++
  txt "func (p *" ++ t ++ ln ") String() string {" ++ ln "    return processor.ConfigString(processorName, p.config)" ++ ln "}" ++ [nl] ++
  (if include then
     [nl] ++ txt "func (p *" ++ t ++ ln ") Process(event processor.Event) error {" ++
     ln "    // TODO: Implement this in process.go." ++ ln "    return nil" ++ ln "}"
   else []) ++ [nl].
(** goFileTemplate.Execute; [None]: a template function failed (main calls log.Fatal). *)
Definition source_text (lib : library) (lic name : list ascii) (imports : list (list ascii)) (p : proc_def) (include : bool) : option (list ascii) :=
  match fields_text lib (p_conf p), descriptionToComment lib [] (p_desc p) with
  | Some fs, Some c =>
      Some (head_text lic name imports ++ fs ++ defaults_text lib (p_conf p) ++
            [nl] ++ txt "// " ++ c ++ [nl] ++ tail_text name include)
  | _, _ => None
  end.

(** ** pkg/processor/generate/generate.go *)
(** Go compares strings byte by byte. *)
Fixpoint text_le (a b : list ascii) : bool :=
  match a, b with
  | [], _ => true
  | _ :: _, [] => false
  | c :: a', d :: b' => if code c =? code d then text_le a' b' else code c <? code d
  end.
(** sort.Slice(data.Configuration, by Name): any order among equal names. *)
Definition sorted_options (opts opts' : list option_def) : Prop :=
  opts' ≡ₚ opts ∧ StronglySorted (λ a b, text_le (o_name a) (o_name b) = true) opts'.
(** The generated files by processor name: outputDir/name/name.go. *)
Notation files := (list ascii → option (list ascii)).
Definition write_file (fs : files) (name t : list ascii) : files := λ n, if bool_decide (n = name) then Some t else fs n.
Section generate.
  (** format.Source; parser.ParseFile and the search for a FuncDecl named Process, [None]: a
      syntax error. *)
  Context (gofmt : list ascii → option (list ascii)) (find_process : list ascii → option bool).
  (** generate.go:124-147 hasProcessFunc and its use, 94-99 *)
  Definition include_process (f : option (list ascii)) : bool :=
    match f with
    | None => true
    | Some src => match find_process src with Some false => false | _ => true end
    end.
  (** generate.go:79-119, one processor. *)
  Definition generated (lib : library) (lic : list ascii) (fs : files) (name : list ascii) (p : proc_def) (fs' : files) : Prop :=
    ∃ conf imports src out, sorted_options (p_conf p) conf ∧ configTypeImports conf imports ∧
      source_text lib lic name imports (mkProc (p_desc p) conf) (include_process (fs name)) = Some src ∧
      gofmt src = Some out ∧ fs' = write_file fs name out.
  (** generate.go:64-121 main: the processors in the order visited (each map of the list in
      any order).  log.Fatal may end it (flag false) before any of them (a template function, gofmt,
      mkdir or the write failed).  Simplified: a failing write leaves the old file. *)
  Inductive generator_run (lib : library) (lic : list ascii) : files → list (list ascii * proc_def) → files → bool → Prop :=
  | run_end fs : generator_run lib lic fs [] fs true
  | run_fatal fs ps : generator_run lib lic fs ps fs false
  | run_next fs name p ps fs1 fs2 completed : generated lib lic fs name p fs1 → generator_run lib lic fs1 ps fs2 completed →
      generator_run lib lic fs ((name, p) :: ps) fs2 completed.
End generate.

(** ** docs/generate *)
(** funcs.go:156-161 boolToX *)
Definition boolToX (b : bool) : list ascii := if b then txt "x" else [].
(** docs/generate/generate.go:100-109 goTypeToYAMLType *)
Definition goTypeToYAMLType (t : list ascii) : list ascii :=
  if bool_decide (t = txt "github.com/andrewkroh/go-sawmill/pkg/config.EventValue") then txt "any"
  else if bool_decide (t = txt "map[string]interface{}") then txt "map"
  else t.
(** processor.md.gotmpl:8 {{if $o.Default}}{{$o.Default}}{{end}} *)
Definition doc_default (d : option default_value) : list ascii :=
  match d with
  | None => []
  | Some (DString s) => s
  | Some (DOther t truth) => if truth then t else []
  end.
(** strings.ReplaceAll(description, "\n", " ") *)
Definition one_line (l : list ascii) : list ascii := map (λ c, if Ascii.eqb c nl then space else c) l.
(** processor.md.gotmpl:8 *)
Definition doc_row (o : option_def) : list ascii :=
  txt "| " ++ o_name o ++ txt " | " ++ boolToX (o_required o) ++ txt " | " ++ boolToX (o_optional o) ++ txt " | " ++
  goTypeToYAMLType (o_type o) ++ txt " | " ++ doc_default (o_default o) ++ txt " | " ++ one_line (o_desc o) ++ txt " |" ++ [nl].
(** processor.md.gotmpl:1-9 *)
Definition doc_section (name : list ascii) (p : proc_def) : list ascii :=
  txt "### " ++ name ++ [nl; nl] ++ p_desc p ++ [nl; nl] ++
  ln "| Option | Required | Optional | Type | Default | Description |" ++
  ln "|--------|----------|----------|------|---------|-------------|" ++
  concat (map doc_row (p_conf p)) ++ [nl].
(** docs/generate/generate.go:69-87: one entry of each map of the list (range ... break),
    options sorted by name; the processors sorted by name. *)
Notation proc_entry := (list ascii * proc_def)%type.
Definition doc_entry (m : list proc_entry) (e : proc_entry) : Prop :=
  ∃ p, (fst e, p) ∈ m ∧ p_desc (snd e) = p_desc p ∧ sorted_options (p_conf p) (p_conf (snd e)).
Definition doc_entries (maps : list (list proc_entry)) (es : list proc_entry) : Prop :=
  ∃ es0, Forall2 doc_entry (List.filter (λ m, match m with [] => false | _ => true end) maps) es0 ∧ es ≡ₚ es0 ∧
    StronglySorted (λ a b, text_le (fst a) (fst b) = true) es.
(** README.md.gotmpl:48-55, [intro] the text before. *)
Definition readme_text (intro : list ascii) (es : list proc_entry) : list ascii :=
  intro ++ ln "## Processors" ++ concat (map (λ e, nl :: txt "- [" ++ fst e ++ txt "](#" ++ fst e ++ txt ")") es) ++
  [nl; nl] ++ concat (map (λ e, nl :: doc_section (fst e) (snd e)) es) ++ [nl].
Definition readme (intro : list ascii) (maps : list (list proc_entry)) (text : list ascii) : Prop :=
  ∃ es, doc_entries maps es ∧ text = readme_text intro es.
