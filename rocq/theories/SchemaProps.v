(** * processors.yml: C80 (what is read) and C81 (from the file to what the generators write).

    [ReadProcessorsYAMLFile f]: what the generators read from the file [f]; None is an
    error, [Some None] a nil pointer.  A document is given as its tree of nodes, aliases
    replaced by what they stand for.  [file_says], [option_says], [members], [given]
    (Schema.v, under "Specification"): what the tree says.
    [generate_main], [docs_main] (Generators.v): runs of the two programs. *)
From Verif Require Import Generators GenFacts GenNames GenProps.
From Coq Require Import Sorting.Sorted.
Local Open Scope Z_scope.

(** ** C80 *)
(** What is read is what the first document says; everything else is an error: unknown
    names, repeated keys, values of the wrong kind. *)
Theorem C80_reads : ∀ f ps, ReadProcessorsYAMLFile f = Some ps ↔ ∃ n, f = FirstDocument n ∧ file_says n ps.
Proof. exact file_iff. Qed.
Print Assumptions C80_reads.
Theorem C80_one_reading : ∀ n ps ps', file_says n ps → file_says n ps' → ps = ps'.
Proof.
  intros n ps ps' H H'. assert (ReadProcessorsYAMLFile (FirstDocument n) = Some ps) as E by (apply file_iff; by exists n).
  assert (ReadProcessorsYAMLFile (FirstDocument n) = Some ps') as E' by (apply file_iff; by exists n). congruence.
Qed.
Print Assumptions C80_one_reading.
(** An option that merges another may give some of its fields anew, before or after the
    merge key: its own count. *)
Theorem C80_own_fields_count : ∀ m es k f n, members (YMap m) es → (k, n) ∈ m → names k f → ¬ merge_key k → given es f n.
Proof.
  intros m es k f n Hm Hin Hf Hk. inversion Hm as [? own rest Hd Ho _]; subst. apply given_app. left.
  apply given_in; [by eapply own_NoDup|by eapply own_in].
Qed.
Print Assumptions C80_own_fields_count.
(** A mapping with only a merge key is the mapping merged. *)
Theorem C80_only_merged : ∀ k n es, merge_key k → members (YMap [(k, n)]) es ↔ members n es ∨ ∃ l, n = YSeq l ∧ all_members l es.
Proof.
  intros k n es Hk. assert (distinct_keys [(k, n)]) as Hd. { intros [|i] [|j] ? ? Hi Hj _; [done|destruct j; discriminate Hj|destruct i; discriminate Hi|destruct i; discriminate Hi]. }
  split.
  - intros H. inversion H as [? own rest _ Ho Hg]; subst. inversion Ho as [|? ? ? ? _ H1|? ? ? ? H1|? ? ? ? ? Hk']; subst; [|discriminate Hk|done].
    inversion H1; subst. cbn [app]. inversion Hg as [? Hn|? k' n' ? Hin Hk' Hm|? k' l ? Hin Hk' Hm]; subst.
    + destruct (Hn k n); [left|done].
    + apply elem_of_list_singleton in Hin as [= -> ->]. by left.
    + apply elem_of_list_singleton in Hin as [= -> <-]. right. by exists l.
  - intros H. change es with ([] ++ es). apply mb_map; [done|by apply om_merge, om_end|]. destruct H as [H|(l & -> & H)].
    + apply (mg_one _ k n); [left|done|done].
    + apply (mg_list _ k l); [left|done|done].
Qed.
Print Assumptions C80_only_merged.
(** The members of an option, of a processor or of the file may stand in any order. *)
Theorem C80_any_order : ∀ m m', m ≡ₚ m' →
  (∀ o, option_says (YMap m) o → option_says (YMap m') o) ∧
  (∀ p, processor_says (YMap m) p → processor_says (YMap m') p) ∧
  (∀ ps, entry_says (YMap m) ps → entry_says (YMap m') ps) ∧
  ∀ ps, file_says (YMap m) ps → file_says (YMap m') ps.
Proof.
  intros m m' Hp. split; [|split; [|split]].
  - intros o H. inversion H as [? es ? ? ? ? ? ? Hm]; subst. destruct (members_permute _ _ _ Hm Hp) as (es' & Hm' & Hg & Hk).
    apply (os_option _ es'); [done|by eapply only_alike|by eapply says_alike..].
  - intros p H. inversion H as [|? es ? ? Hm]; subst. destruct (members_permute _ _ _ Hm Hp) as (es' & Hm' & Hg & Hk).
    apply (ps_processor _ es'); [done|by eapply only_alike|by eapply says_alike..].
  - intros ps H. inversion H as [|? es ? Hm Hs H1 H2]; subst. destruct (members_permute _ _ _ Hm Hp) as (es' & Hm' & Hg & Hk).
    apply (es_entry _ es'); [done|done|intros f n; rewrite <- Hg; apply H1|]. intros f p. rewrite H2. by setoid_rewrite Hg.
  - intros ps H. inversion H as [|? es ? Hm]; subst. destruct (members_permute _ _ _ Hm Hp) as (es' & Hm' & Hg & Hk).
    apply (fs_file _ es'); [done|by eapply only_alike|by eapply says_alike..].
Qed.
Print Assumptions C80_any_order.
(** A misspelled field of an option makes the whole file unreadable (it is not ignored as in
    pipeline definitions, C75). *)
Theorem C80_misspelled_refused : ∀ m k f n, (k, n) ∈ m → names k f → ¬ merge_key k →
  f ∉ ["name"; "type"; "required"; "optional"; "default"; "description"] → ∀ o, ¬ option_says (YMap m) o.
Proof.
  intros m k f n Hin Hf Hk Hn o H. inversion H as [? es ? ? ? ? ? ? Hm Ho]; subst. apply Hn, Ho.
  destruct (C80_own_fields_count m es k f n Hm Hin Hf Hk) as (a & b & -> & _). rewrite map_app. apply elem_of_app. right. left.
Qed.
Print Assumptions C80_misspelled_refused.

(** The first processors of pkg/processor/processors.yml. *)
Definition w (s : string) : ynode := YLeaf s LStr.
Definition t_ (b : bool) : ynode := YLeaf (if b then "true" else "false") (LBool b).
Definition a_field : ynode := YMap [(w "name", w "field"); (w "type", w "string"); (w "required", t_ true); (w "description", w "Source field to process.")].
Definition a_ignore_missing : ynode :=
  YMap [(w "name", w "ignore_missing"); (w "type", w "bool"); (w "optional", t_ true); (w "default", t_ false); (w "description", w "Quietly.")].
Definition ex_file : ynode := YMap
  [(w "common_fields", YMap [(w "field", a_field); (w "ignore_missing", a_ignore_missing)]);
   (w "processors", YSeq
     [YMap [(w "append", YMap
        [(w "description", w "Appends.");
         (w "configuration", YSeq [YMap [(w "<<", a_ignore_missing)]; YMap [(w "<<", a_field); (w "required", t_ false)]; YMap [(w "name", w "value"); (w "required", w "yes")]; YLeaf "" LNull])])];
      YMap [(w "drop", YLeaf "" LNull)]])].
Example C80_ex : ReadProcessorsYAMLFile (FirstDocument ex_file) = Some (Some
  [[("append", mkYProc "Appends."
     [mkYOpt "ignore_missing" "bool" false true (VBool false) "Quietly.";
      mkYOpt "field" "string" false false VNil "Source field to process.";
      mkYOpt "value" "" true false VNil ""])];
   [("drop", mkYProc "" [])]]) ∧
  ReadProcessorsYAMLFile (FirstDocument (YMap [(w "processor", YSeq [])])) = None ∧
  ReadProcessorsYAMLFile (FirstDocument (YLeaf "" LNull)) = Some None.
Proof. split; [|split]; reflexivity. Qed.

(** ** C81 *)
(** The generator of processors: if no processor is listed twice, a run that is completed has
    written for each one the formatted source text of what processors.yml says about it, its
    options sorted by name, with Process unless the file was there and had none.  No other
    file is changed. *)
Theorem C81_files_written : ∀ show gofmt find_process lib lic n ps fs fs', file_says n (Some ps) → NoDup (map fst (concat ps)) →
  generate_main show gofmt find_process lib lic (FirstDocument n) fs fs' Completed →
  (∀ name p, (name, p) ∈ concat ps → ∃ opts imports include src out, opts ≡ₚ map (option_of show) (yp_conf p) ∧
    StronglySorted (λ a b, text_le (o_name a) (o_name b) = true) opts ∧ configTypeImports opts imports ∧
    (include = true ↔ ∀ s, fs (txt name) = Some s → find_process s ≠ Some false) ∧
    source_text lib lic (txt name) imports (Gen.mkProc (txt (yp_desc p)) opts) include = Some src ∧
    gofmt src = Some out ∧ fs' (txt name) = Some out) ∧
  (∀ f, (∀ name, name ∈ map fst (concat ps) → f ≠ txt name) → fs' f = fs f).
Proof.
  intros show gofmt find_process lib lic n ps fs fs' Hs Hn Hr.
  assert (ReadProcessorsYAMLFile (FirstDocument n) = Some (Some ps)) as Er by (apply file_iff; by exists n).
  remember Completed as e eqn:Ee. destruct Hr as [E|E|ps' ms fs' d E Hp Hrun]; [done..|]. destruct d; [|done].
  assert (ps' = ps) as -> by congruence. pose proof (entries_permuted show ps ms Hp) as Hpe. split.
  - intros name p Hin. assert ((txt name, proc_of show p) ∈ concat (map (entries_of show) ms)) as Hin'.
    { rewrite <- Hpe. clear -Hin. induction ps as [|x ps IH]; [by apply elem_of_nil in Hin|]. cbn [map concat] in *. apply elem_of_app in Hin as [Hin|Hin].
      - apply elem_of_app. left. unfold entries_of. apply elem_of_list_fmap. by exists (name, p).
      - apply elem_of_app. right. by apply IH. }
    assert (NoDup (map fst (concat (map (entries_of show) ms)))) as Hn'. { rewrite <- Hpe, entries_names. by apply NoDup_txt. }
    destruct (run_writes _ _ _ _ _ _ _ Hrun Hn' _ _ Hin') as (conf & imports & src & out & [H1 H2] & H3 & H4 & H5 & H6).
    exists conf, imports, (include_process find_process (fs (txt name))), src, out. split; [exact H1|]. split; [exact H2|]. split; [exact H3|].
    split; [apply include_iff|]. split; [exact H4|]. split; [exact H5|exact H6].
  - intros f Hf. apply (C69_other_files _ _ _ _ _ _ _ _ _ Hrun). rewrite <- Hpe, entries_names. intros Hin. apply elem_of_list_fmap in Hin as (name & -> & Hin).
    by apply (Hf name).
Qed.
Print Assumptions C81_files_written.
(** A run that fails changes no other file than those of the processors listed. *)
Theorem C81_files_kept : ∀ show gofmt find_process lib lic n ps fs fs' e, file_says n (Some ps) →
  generate_main show gofmt find_process lib lic (FirstDocument n) fs fs' e →
  ∀ f, (∀ name, name ∈ map fst (concat ps) → f ≠ txt name) → fs' f = fs f.
Proof.
  intros show gofmt find_process lib lic n ps fs fs' e Hs Hr f Hf.
  destruct Hr as [E|E|ps' ms fs' d E Hp Hrun]; [done..|]. apply file_iff in E as (n' & [= <-] & Hs'). pose proof (C80_one_reading _ _ _ Hs Hs') as [= <-].
  apply (C69_other_files _ _ _ _ _ _ _ _ _ Hrun). rewrite <- (entries_permuted show ps ms Hp), entries_names. intros Hin.
  apply elem_of_list_fmap in Hin as (name & -> & Hin). by apply (Hf name).
Qed.
Print Assumptions C81_files_kept.
(** The README has a section with the rows of its options for each processor of
    processors.yml, if every entry of the list has one. *)
Theorem C81_readme_written : ∀ show intro n ps text, file_says n (Some ps) → Forall (λ m, length m = 1%nat) ps →
  docs_main show intro (FirstDocument n) (Some text) Completed →
  ∀ name p, (name, p) ∈ concat ps → ∃ conf a b, conf ≡ₚ map (option_of show) (yp_conf p) ∧
    StronglySorted (λ o o', text_le (o_name o) (o_name o') = true) conf ∧
    text = a ++ txt "### " ++ txt name ++ [nl; nl] ++ txt (yp_desc p) ++ [nl; nl] ++
      ln "| Option | Required | Optional | Type | Default | Description |" ++
      ln "|--------|----------|----------|------|---------|-------------|" ++ concat (map doc_row conf) ++ b.
Proof.
  intros show intro n ps text Hs Hone Hr name p Hin. inversion Hr as [| |ps' text' E Hread]; subst.
  apply file_iff in E as (n' & [= <-] & Hs'). pose proof (C80_one_reading _ _ _ Hs Hs') as [= <-].
  assert (Forall (λ m, length m = 1%nat) (map (entries_of show) ps)) as Hone'.
  { apply List.Forall_map. eapply List.Forall_impl; [|exact Hone]. intros m Hm. unfold entries_of. by rewrite map_length. }
  destruct (C70_sections intro _ text Hread Hone') as (es & _ & _ & _ & H).
  destruct (H (txt name) (proc_of show p)) as (conf & a & b & H1 & H2 & H3).
  { clear -Hin. induction ps as [|x ps IH]; [by apply elem_of_nil in Hin|]. cbn [map concat] in *. apply elem_of_app in Hin as [Hin|Hin].
    - apply elem_of_app. left. unfold entries_of. apply elem_of_list_fmap. by exists (name, p).
    - apply elem_of_app. right. by apply IH. }
  by exists conf, a, b.
Qed.
Print Assumptions C81_readme_written.
(** A run is completed only with a file that says something; without one nothing is written. *)
Theorem C81_nothing_said : ∀ show gofmt find_process lib lic intro f, (∀ n ps, f = FirstDocument n → ¬ file_says n ps) →
  (∀ fs fs' e, generate_main show gofmt find_process lib lic f fs fs' e → fs' = fs ∧ e = Failed) ∧
  (∀ out e, docs_main show intro f out e → out = None ∧ e = Failed).
Proof.
  intros show gofmt find_process lib lic intro f H.
  assert (ReadProcessorsYAMLFile f = None) as E.
  { destruct (ReadProcessorsYAMLFile f) as [ps|] eqn:E; [|done]. apply file_iff in E as (n & -> & Hs). by destruct (H n ps). }
  split.
  - intros fs fs' e Hr. destruct Hr as [_|E'|ps ms fs' d E' _ _]; [done|congruence..].
  - intros out e Hr. destruct Hr as [_|E'|ps text E' _]; [done|congruence..].
Qed.
Print Assumptions C81_nothing_said.
(** A null first document crashes both programs. *)
Theorem C81_null_refuted : ∀ show gofmt find_process lib lic intro text,
  (∀ fs fs' e, generate_main show gofmt find_process lib lic (FirstDocument (YLeaf text LNull)) fs fs' e → fs' = fs ∧ e = Crashed) ∧
  (∀ out e, docs_main show intro (FirstDocument (YLeaf text LNull)) out e → out = None ∧ e = Crashed).
Proof.
  intros show gofmt find_process lib lic intro text. split.
  - intros fs fs' e Hr. destruct Hr as [E|_|ps ms fs' d E _ _]; done.
  - intros out e Hr. destruct Hr as [E|_|ps t E _]; done.
Qed.
Print Assumptions C81_null_refuted.
(** What the templates are given of an option: its fields, and of its default whether there
    is one, the Go literal that InitDefaults gets and what the README shows. *)
Theorem C81_options : ∀ show lib o, let g := option_of show o in
  o_name g = txt (yo_name o) ∧ o_type g = txt (yo_type o) ∧ o_desc g = txt (yo_desc o) ∧
  o_required g = yo_required o ∧ o_optional g = yo_optional o ∧
  (selectDefaults [g] = [] ↔ yo_default o = VNil) ∧
  (∀ s, yo_default o = VStr s → doc_default (o_default g) = txt s ∧ option_map (quoteStrings lib) (o_default g) = Some (quote lib (txt s))) ∧
  ((∀ s, yo_default o ≠ VStr s) → yo_default o ≠ VNil → option_map (quoteStrings lib) (o_default g) = Some (show (yo_default o)) ∧
    (yo_default o ∉ [VBool false; VInt 0; VUint 0; VFloat 0; VFloat (2 ^ 63); VList []; VMap []; VGeneral []] → doc_default (o_default g) = show (yo_default o)) ∧
    (yo_default o ∈ [VBool false; VInt 0; VUint 0; VFloat 0; VFloat (2 ^ 63); VList []; VMap []; VGeneral []] → doc_default (o_default g) = [])).
Proof.
  intros show lib o g. subst g. repeat (split; [reflexivity|]). destruct o as [n t r q d de]. cbn [option_of yo_default o_default].
  split; [destruct d; cbn; split; congruence|]. split; [by intros s ->|]. intros Hs Hn.
  assert (default_of show d = Some (DOther (show d) (template_true d))) as E by (destruct d; first [done|reflexivity|by destruct (Hs s)]).
  rewrite E. split; [reflexivity|]. cbn [doc_default]. assert (template_true d = false ↔ d ∈ [VBool false; VInt 0; VUint 0; VFloat 0; VFloat (2 ^ 63); VList []; VMap []; VGeneral []]) as Ht.
  { rewrite !elem_of_cons, elem_of_nil. clear E. destruct d as [|[]|z|z|z|s|z|l|m|m]; [done|..]; cbn [template_true];
      try (split; [intros ?; try discriminate; tauto|intros ?; try reflexivity; destruct_or?; discriminate]).
    - rewrite negb_false_iff, Z.eqb_eq. split; [intros ->; tauto|intros ?; destruct_or?; congruence].
    - rewrite negb_false_iff, Z.eqb_eq. split; [intros ->; tauto|intros ?; destruct_or?; congruence].
    - rewrite negb_false_iff, orb_true_iff, !Z.eqb_eq. split; [intros [-> | ->]; tauto|intros ?; destruct_or?; try discriminate; [left|right]; congruence].
    - by destruct (Hs s).
    - destruct l; (split; [intros ?; try discriminate; tauto|intros ?; try reflexivity; destruct_or?; discriminate]).
    - destruct m; (split; [intros ?; try discriminate; tauto|intros ?; try reflexivity; destruct_or?; discriminate]).
    - destruct m; (split; [intros ?; try discriminate; tauto|intros ?; try reflexivity; destruct_or?; discriminate]). }
  destruct (template_true d); split; intros H; try reflexivity; [by apply Ht in H|exfalso; by apply H, Ht].
Qed.
Print Assumptions C81_options.
(** A file with one processor that has an option: completed runs of both programs. *)
Example C81_ex : ∃ n p fs' text, file_says n (Some [[("x", p)]]) ∧ length (yp_conf p) = 1%nat ∧
  generate_main (λ _, []) toy_gofmt toy_find plain_library [] (FirstDocument n) (λ _, None) fs' Completed ∧ fs' (txt "x") = Some (txt "}") ∧
  docs_main (λ _, []) [] (FirstDocument n) (Some text) Completed.
Proof.
  set (n := YMap [(w "processors", YSeq [YMap [(w "x", YMap [(w "configuration", YSeq [a_field])])]])]).
  set (p := mkYProc "" [mkYOpt "field" "string" true false VNil "Source field to process."]).
  assert (ReadProcessorsYAMLFile (FirstDocument n) = Some (Some [[("x", p)]])) as E by reflexivity.
  set (q := proc_of (λ _, []) p).
  destruct (source_code plain_library [] (txt "x") [] q q true) as (src & _ & Hs & _ & _).
  - apply List.Forall2_cons; [|apply List.Forall2_nil]. repeat split; reflexivity.
  - apply List.Forall_cons; [vm_compute; discriminate|apply List.Forall_nil].
  - apply List.Forall_cons; [vm_compute; discriminate|apply List.Forall_nil].
  - vm_compute; discriminate.
  - vm_compute; discriminate.
  - assert (sorted_options (p_conf q) (p_conf q)) as Hso. { split; [reflexivity|]. apply SSorted_cons; [apply SSorted_nil|apply List.Forall_nil]. }
    exists n, p, (write_file (λ _, None) (txt "x") (txt "}")), (readme_text [] [(txt "x", q)]).
    split; [apply file_iff in E as (n' & [= <-] & H); exact H|]. split; [reflexivity|]. split; [|split].
    + apply (gm_run (λ _, []) toy_gofmt toy_find plain_library [] (FirstDocument n) (λ _, None) [[("x", p)]] [[("x", p)]] _ true E).
      * apply Forall2_cons_2; [reflexivity|apply Forall2_nil_2].
      * eapply run_next; [|apply run_end]. exists (p_conf q), [], src. eexists. split; [exact Hso|]. split; [|split; [|split]].
        -- apply Permutation_refl'. vm_compute. reflexivity.
        -- exact Hs.
        -- exact (toy_formats _ _ _ _ _ _ _ Hs).
        -- reflexivity.
    + apply write_file_same.
    + apply (dm_run (λ _, []) [] (FirstDocument n) [[("x", p)]] _ E). exists [(txt "x", q)]. split; [|reflexivity].
      exists [(txt "x", q)]. split; [|split; [reflexivity|apply SSorted_cons; [apply SSorted_nil|apply List.Forall_nil]]].
      apply List.Forall2_cons; [|apply List.Forall2_nil]. exists q. split; [by left|]. split; [reflexivity|exact Hso].
Qed.
