(** * Property theorems for the command line tool: C45.

    [processInput fmt f pl w writes bytes readerr = Ok (s, err)]: processInput run with
    pipeline [pl] on a reader giving [bytes] (then failing if [readerr], else at its
    end); [io_out s] is what it wrote, [io_reported s] the numbers of the lines it
    logged an error for, [err] whether it returned an error.  [writes = None]: no write
    fails; [Some (k, b)]: the write after the first [k] does, after [b] bytes.  [fmt] is how strconv writes
    doubles, [f] how deep the stack is; [Panic]: the program dies.
    [text_lines bytes ls]: [ls] are the lines of [bytes]. *)
From Verif Require Import CmdIso.
Local Open Scope Z_scope.

(** ** C45 *)
(** Every text has lines, in one way only, and [trim] removes exactly the white space at both ends. *)
Theorem C45_lines_exist : ∀ bytes, ∃ ls, text_lines bytes ls.
Proof. exact text_lines_total. Qed.
Print Assumptions C45_lines_exist.
Theorem C45_lines_unique : ∀ bytes ls ls', text_lines bytes ls → text_lines bytes ls' → ls = ls'.
Proof. intros bytes ls ls' H. by apply text_lines_unique. Qed.
Print Assumptions C45_lines_unique.
Theorem C45_trim : ∀ l t, trim l = t ↔ stripped l t.
Proof. intros l t. rewrite stripped_trimmed. apply trim_spec. Qed.
Print Assumptions C45_trim.

(** Full statement wanted: every line that is not blank gives, in order, one line of
    JSON or one logged error.  Proved: so it is for the lines before the first one of
    65536 bytes or more ([upto_long]), if no write fails: [served] runs the pipeline on
    an event made for each line, holding its number and its trimmed text, and [os] says
    what each gave.  The error tells whether the input was cut short. *)
Theorem C45_one_output_per_line_partial : ∀ fmt f pl w bytes readerr ls s err,
  float_format fmt → text_lines bytes ls →
  processInput fmt f pl w None bytes readerr = Ok (s, err) →
  ∃ os, served fmt f pl w (numbered (upto_long ls)) (io_world s) os ∧
    length os = length (numbered (upto_long ls)) ∧
    io_out s = concat (map (λ o, match o with Some t => t ++ [nl] | None => [] end) os) ∧
    Forall (λ o, match o with Some t => Forall printable t | None => True end) os ∧
    io_reported s = (filter (λ x, x.2 = None) (zip (numbered (upto_long ls)) os)).*1.*1 ∧
    (err = true ↔ readerr = true ∨ Exists (λ l, 65536 ≤ Z.of_nat (length l)) ls).
Proof.
  intros fmt f pl w bytes readerr ls s err Hf Hls H. unfold processInput in H. rewrite (scan_lines _ _ Hls) in H.
  destruct (process_lines _ _ _ _ 0 _) as [s'|] eqn:E; [|done]. injection H as <- <-.
  apply process_lines_served in E as (os & Hs & Hl & Ho & Hr); [|done|done]. cbn [io_world io_out io_reported app] in *.
  assert (∀ n l, numbered_from n (map dropCR l) = numbered_from n l) as Hd.
  { intros n l. revert n. induction l as [|x l IH]; intros n; [done|]. cbn [map numbered_from].
    rewrite trim_dropCR. destruct (trim x); by rewrite IH. }
  rewrite Hd, numbered_eq in *. exists os. split_and!; try done.
  - clear -Hs Hf. induction Hs as [| |?????????????? Hm]; [constructor|by constructor|].
    constructor; [|done]. destruct o as [t|]; [|done]. by eapply MarshalText_printable.
  - rewrite orb_true_iff, bool_decide_eq_true. unfold maxLine. tauto.
Qed.
Print Assumptions C45_one_output_per_line_partial.

(** Lines are independent: with built-in processors whose [set] values are plain, each
    line gives what the input of only that line, after as many empty lines as put it at
    its number, gives. *)
Lemma blank_lines fmt f pl s line : line ≠ [] → trim line = line → ∀ k n,
  process_lines fmt f pl s n (repeat [] k ++ [line]) = process_line fmt f pl s ((n + Z.of_nat k + 1) mod 2 ^ 64) line.
Proof.
  intros Hne Ht. induction k as [|k IH]; intros n.
  - cbn [repeat app process_lines]. rewrite Ht. destruct line as [|c l]; [done|]. rewrite Z.add_0_r. by destruct (process_line _ _ _ _ _ _).
  - cbn [repeat app process_lines]. change (trim []) with (@nil ascii). rewrite IH.
    f_equal. rewrite <- (Z.add_assoc ((n + 1) mod 2 ^ 64)), Zplus_mod_idemp_l. f_equal. lia.
Qed.
Lemma trim_sub l : nl ∉ l → nl ∉ trim l ∧ (length (trim l) ≤ length l)%nat ∧ trim (trim l) = trim l.
Proof.
  intros Hl. destruct (trim_trimmed l) as ((a & b & _ & _ & Hs) & H1 & H2).
  split; [|split].
  - intros Hin. apply Hl. rewrite Hs. set_solver.
  - rewrite Hs at 2. rewrite !app_length. lia.
  - apply trim_spec. split; [|done]. exists [], []. split_and!; [constructor|constructor|]. simpl. by rewrite app_nil_r.
Qed.
Theorem C45_lines_independent_partial : ∀ fmt f C pl w0 bytes readerr ls s err,
  Forall (λ q, builtin C (p_prog q)) (pl_all pl) →
  (∀ p, p ∈ C → ∃ v, hvals (w_heap w0) !! p = Some v ∧ plain v) →
  text_lines bytes ls → Z.of_nat (length ls) < 2 ^ 64 →
  processInput fmt f pl w0 None bytes readerr = Ok (s, err) →
  ∃ outs, io_out s = concat outs ∧
    Forall2 (λ x out, ∃ s1, processInput fmt f pl w0 None
                (repeat nl (Z.to_nat (x.1 - 1)) ++ x.2 ++ [nl]) false = Ok (s1, false) ∧ io_out s1 = out)
      (numbered (upto_long ls)) outs.
Proof.
  intros fmt f C pl w0 bytes readerr ls s err Hb Hc Hls Hlen H. unfold processInput in H. rewrite (scan_lines _ _ Hls) in H.
  destruct (process_lines _ _ _ _ 0 _) as [s'|] eqn:E; [|done]. injection H as <- _.
  apply (process_lines_alone fmt f C pl w0) in E as (os & Hs & Ho & _); try done.
  2:{ eapply Forall_impl; [exact Hb|]. intros q0 Hq. by apply builtin_stateless. }
  2:{ eapply Forall_impl; [exact Hb|]. intros q0 Hq. exact (builtin_keeps _ _ Hq). }
  2:{ intros p Hp. destruct (Hc p Hp) as (v & ? & ?). exists v; auto. }
  assert (∀ n l, numbered_from n (map dropCR l) = numbered_from n l) as Hd.
  { intros n l. revert n. induction l as [|x l IH]; intros n; [done|]. cbn [map numbered_from].
    rewrite trim_dropCR. destruct (trim x); by rewrite IH. }
  rewrite Hd, numbered_eq in *. exists (map (λ o, match o with Some t => t ++ [nl] | None => [] end) os).
  split; [by rewrite Ho|]. apply Forall2_fmap_r.
  assert (Forall (λ x : Z * list ascii, 1 ≤ x.1 < 2 ^ 64 ∧ x.2 ≠ [] ∧ nl ∉ x.2 ∧ Z.of_nat (length x.2) < maxLine ∧ trim x.2 = x.2)
    (numbered (upto_long ls))) as Hall.
  { assert (length (upto_long ls) ≤ length ls)%nat as Hle.
    { clear. induction ls as [|l ls IH]; [done|]. cbn [upto_long]. destruct (decide _); simpl; lia. }
    assert (Forall (λ l, nl ∉ l ∧ Z.of_nat (length l) < maxLine) (upto_long ls)) as Hsh.
    { clear -Hls. induction Hls as [|l Hne Hl|l rest ls Hl _ IH]; cbn [upto_long]; [constructor| |];
      destruct (decide _); try constructor; try done; constructor. }
    apply Forall_forall. intros [n line] Hin. apply elem_of_list_filter in Hin as [Hne Hin]. cbn in Hne.
    apply elem_of_list_lookup in Hin as [k Hk]. rewrite list_lookup_imap in Hk.
    destruct (upto_long ls !! k) as [l|] eqn:El; [|done]. cbn in Hk. injection Hk as <- <-.
    apply lookup_lt_Some in El as Hk. rewrite Z.mod_small by lia.
    rewrite Forall_forall in Hsh. destruct (Hsh l) as [Hl1 Hl2]; [by eapply elem_of_list_lookup_2|].
    destruct (trim_sub l Hl1) as (T1 & T2 & T3). cbn. split_and!; try done; lia. }
  clear -Hs Hall. induction Hs as [|[n line] o ns os Ha _ IH]; [constructor|].
  apply Forall_cons in Hall as [(Hn & Hne & Hnl & Hsh & Ht) Hall]. cbn [fst snd] in *. constructor; [|by apply IH].
  destruct Ha as (s1 & Hp & Ho & _). exists s1. split; [|by rewrite Ho; unfold printed; cbn; rewrite app_nil_r].
  cbn [fst snd]. set (k := Z.to_nat (n - 1)).
  assert (text_lines (repeat nl k ++ line ++ [nl]) (repeat [] k ++ [line])) as Htl.
  { clearbody k. induction k as [|k IHk]; cbn [repeat app].
    - apply (tl_line line [] []); [done|constructor].
    - apply (tl_line [] _ _); [apply not_elem_of_nil|done]. }
  unfold processInput. rewrite (scan_lines _ _ Htl).
  assert (upto_long (repeat [] k ++ [line]) = repeat [] k ++ [line]) as ->.
  { clear Htl. clearbody k. induction k as [|k IHk]; cbn [repeat app upto_long].
    - by rewrite decide_True by done.
    - rewrite decide_True by (unfold maxLine; cbn; lia). f_equal. exact IHk. }
  assert (map dropCR (repeat [] k ++ [line]) = repeat [] k ++ [dropCR line]) as ->.
  { rewrite map_app. f_equal. clear. induction k as [|k IHk]; [done|]. cbn [repeat map]. rewrite IHk. done. }
  assert (dropCR line = line) as ->.
  { unfold dropCR. destruct (rev line) as [|c r] eqn:Er; [done|]. destruct (Ascii.eqb_spec c cr) as [->|]; [|done]. exfalso.
    apply trim_spec in Ht as (_ & _ & Hr2). apply (Hr2 [cr] (rev r)).
    - apply (bool_decide_eq_true_1 _). vm_compute. reflexivity.
    - by rewrite <- (rev_involutive line), Er. }
  rewrite (blank_lines fmt f pl _ line Hne Ht).
  assert ((0 + Z.of_nat k + 1) mod 2 ^ 64 = n) as ->. { subst k. rewrite Z.mod_small; lia. }
  unfold start in Hp. rewrite Hp. rewrite bool_decide_eq_false_2; [done|].
  rewrite Exists_exists. intros (l & [Hin|Hin]%elem_of_app & Hlong).
  - apply elem_of_list_In, repeat_spec in Hin. subst l. unfold maxLine in Hlong. cbn in Hlong. lia.
  - apply elem_of_list_singleton in Hin. subst l. unfold maxLine in *. lia.
Qed.
Print Assumptions C45_lines_independent_partial.

(** A pipeline that lowercases the line, and its output: lines 2 and 4 are blank, line
    numbers count them, HTML characters are escaped. *)
Definition cmd_pl : pipeline :=
  mkPipeline "p" [simple "p.processors[0].set" (set_process (mkSet "" "k" 0));
                  simple "p.processors[1].lowercase" (lowercase_process (λ _, "low") (mkCase "event.original" "l"))] [].
Definition cmd_w : world := mkWorld (mkHeap [mkBool true] []) [] [] [].
Definition cmd_input : list ascii := list_ascii_of_string " A<B " ++ [nl; nl] ++ list_ascii_of_string "x" ++ [cr; nl] ++ list_ascii_of_string "  ".
Definition lines (l : list string) : list ascii := concat (map (λ s, list_ascii_of_string s ++ [nl]) l).
Example C45_ex :
  text_lines cmd_input [list_ascii_of_string " A<B "; []; list_ascii_of_string "x" ++ [cr]; list_ascii_of_string "  "] ∧
  Forall (λ q, builtin [0%nat] (p_prog q)) (pl_all cmd_pl) ∧
  (∀ p, p ∈ [0%nat] → ∃ v, hvals (w_heap cmd_w) !! p = Some v ∧ plain v) ∧
  ∃ s, processInput exact_decimal 5 cmd_pl cmd_w None cmd_input false = Ok (s, false) ∧
    io_out s = lines
      ["{""@metadata"":{""line_number"":1},""event"":{""original"":""A\u003cB""},""k"":true,""l"":""low""}";
       "{""@metadata"":{""line_number"":3},""event"":{""original"":""x""},""k"":true,""l"":""low""}"].
Proof.
  split_and!.
  - apply (tl_line (list_ascii_of_string " A<B ")); [apply (bool_decide_eq_true_1 _); vm_compute; reflexivity|].
    apply (tl_line []); [apply (bool_decide_eq_true_1 _); vm_compute; reflexivity|].
    apply (tl_line (list_ascii_of_string "x" ++ [cr])); [apply (bool_decide_eq_true_1 _); vm_compute; reflexivity|].
    apply tl_last; [done|]. apply (bool_decide_eq_true_1 _). vm_compute. reflexivity.
  - change (pl_all cmd_pl) with [simple "p.processors[0].set" (set_process (mkSet "" "k" 0));
      simple "p.processors[1].lowercase" (lowercase_process (λ _, "low") (mkCase "event.original" "l"))].
    apply List.Forall_cons; [apply bi_set; left|]. apply List.Forall_cons; [apply bi_lowercase|]. apply List.Forall_nil.
  - intros p ->%elem_of_list_singleton. exists (mkBool true). by split_and!.
  - eexists. split; [vm_compute; reflexivity|]. vm_compute; reflexivity.
Qed.

(** What is missing from the full statement is false.  A line of 65536 bytes or more
    ends the output for good: nothing after it is processed. *)
Theorem C45_long_line_refuted : ∀ fmt f pl w long rest readerr,
  65536 ≤ Z.of_nat (length long) → nl ∉ long →
  processInput fmt f pl w None (long ++ nl :: rest) readerr = Ok (start w, true).
Proof.
  intros fmt f pl w long rest readerr Hl Hn. destruct (text_lines_total rest) as [ls Hls].
  unfold processInput. rewrite (scan_lines _ _ (tl_line long rest ls Hn Hls)). cbn [upto_long].
  rewrite decide_False by (unfold maxLine; lia). rewrite bool_decide_eq_true_2; [done|]. left. unfold maxLine. lia.
Qed.
Print Assumptions C45_long_line_refuted.

(** A failing write: it writes any number [b] of bytes of a line, after [k] whole lines.
    The lines before it are written or reported as without failures, that line and all
    after it are reported, nothing more is written, and processing goes on ([rs]: for each line its
    number and the text it gives, if any; [shown_texts], [without_text]: the texts, the
    numbers of the lines without). *)
Theorem C45_write_error : ∀ fmt f pl w bytes readerr ls s err, text_lines bytes ls →
  processInput fmt f pl w None bytes readerr = Ok (s, err) →
  ∃ rs, map fst rs = map fst (numbered (upto_long ls)) ∧
    io_out s = concat (map (λ t, t ++ [nl]) (shown_texts rs)) ∧ io_reported s = without_text rs ∧
    ∀ k b, ∃ sk ok rest, processInput fmt f pl w (Some (k, b)) bytes readerr = Ok (sk, err) ∧ io_world sk = io_world s ∧
      rs = ok ++ rest ∧ io_reported sk = without_text ok ++ map fst rest ∧
      ((rest = [] ∧ (length (shown_texts ok) ≤ k)%nat ∧ io_out sk = concat (map (λ t, t ++ [nl]) (shown_texts ok))) ∨
       ∃ n t rest', rest = (n, Some t) :: rest' ∧ length (shown_texts ok) = k ∧
         io_out sk = concat (map (λ t, t ++ [nl]) (shown_texts ok)) ++ take b (t ++ [nl])).
Proof.
  intros fmt f pl w bytes readerr ls s err Hls H. unfold processInput in *. rewrite (scan_lines _ _ Hls) in *.
  destruct (process_lines _ _ _ _ 0 _) as [s'|] eqn:E; [|done]. injection H as <- <-.
  destruct (process_lines_any fmt f pl _ (mkIO w [] None false []) _ _ eq_refl eq_refl E) as (rs & Hn & -> & Hall). exists (map snd rs).
  destruct (deliver_none rs (mkIO w [] None false []) eq_refl eq_refl) as [Ho Hr].
  assert (∀ n l, numbered_from n (map dropCR l) = numbered_from n l) as Hd.
  { intros n l. revert n. induction l as [|x l IH]; intros n; [done|]. cbn [map numbered_from].
    rewrite trim_dropCR. destruct (trim x); by rewrite IH. }
  rewrite Hd, numbered_eq in Hn. split; [exact Hn|]. split; [exact Ho|]. split; [exact Hr|]. intros k b.
  destruct (deliver_some rs (mkIO w [] (Some (k, b)) false []) k b eq_refl eq_refl) as (ok & rest & Hl & Hrep & Hout).
  eexists _, ok, rest. split; [by rewrite Hall|]. split; [by apply deliver_all_world|]. split; [exact Hl|]. split; [exact Hrep|]. exact Hout.
Qed.
Print Assumptions C45_write_error.
(** So output can be lost without an error. *)
Theorem C45_lost_output_refuted : ∃ s sk,
  processInput exact_decimal 5 cmd_pl cmd_w None cmd_input false = Ok (s, false) ∧
  processInput exact_decimal 5 cmd_pl cmd_w (Some (0, 0)%nat) cmd_input false = Ok (sk, false) ∧
  io_out s ≠ [] ∧ io_out sk = [].
Proof. eexists _, _. split; [vm_compute; reflexivity|]. split; [vm_compute; reflexivity|]. done. Qed.
Print Assumptions C45_lost_output_refuted.

(** A built-in processor can make the event contain itself; encoding it then never
    ends, so the program dies (here: for every depth of the stack). *)
Definition cyc_pl : pipeline := mkPipeline "p" [simple "s" (set_process (mkSet "event" "event.self" 0))] [].
Definition cyc_w : world := mkWorld (mkHeap [mkNull] []) [] [] [].
Lemma jmapM_never {A B} (g : A → Outcome (option B)) l x : x ∈ l → (∀ y, y ∈ l → g y ≠ Ok None) → g x = Panic → jmapM g l = Panic.
Proof.
  intros Hin Hn Hx. induction l as [|y l IH]; [by apply elem_of_nil in Hin|]. rewrite jmapM_cons.
  destruct (g y) as [[z|]|] eqn:Ey; cbn [jbind]; [|exfalso; apply (Hn y); [left|done]|done].
  apply elem_of_cons in Hin as [->|Hin]; [congruence|]. rewrite IH; [done|done|]. intros y' Hy'. apply Hn. by right.
Qed.
Definition cyc_h : heap :=
  mkHeap [mkNull; mkUnsignedInteger 1; mkObject (Some 1%nat); mkString "hello"; mkObject (Some 2%nat)]
    [[("@metadata", Some 2%nat); ("event", Some 4%nat)]; [("line_number", Some 1%nat)];
     [("original", Some 3%nat); ("self", Some 4%nat)]].
Lemma cyc_value f : valueJSON exact_decimal f cyc_h (Some 4%nat) = Panic.
Proof.
  induction f as [|f IH]; [done|]. cbn [valueJSON deref]. cbn -[jmapM valueJSON jret].
  rewrite (jmapM_never _ _ ("self", Some 4%nat)); [done|right; left| |cbn [snd]; by rewrite IH].
  intros y Hy. cbn in Hy. destruct f as [|f]; [done|]. apply elem_of_cons in Hy as [->|Hy]; [done|].
  apply elem_of_list_singleton in Hy as ->. cbn [snd]. by rewrite IH.
Qed.
Lemma cyc_event f : MarshalText exact_decimal f cyc_h (mkEvent (Some 0%nat)) = Panic.
Proof.
  unfold MarshalText, MarshalEvent. cbn [fields]. change (map_of cyc_h (Some 0%nat)) with [("@metadata", Some 2%nat); ("event", Some 4%nat)].
  rewrite (jmapM_never _ _ ("event", Some 4%nat)); [done|right; left| |cbn [snd]; by rewrite cyc_value].
  intros y Hy. apply elem_of_cons in Hy as [->|Hy].
  - destruct f as [|[|f]]; done.
  - apply elem_of_list_singleton in Hy as ->. cbn [snd]. by rewrite cyc_value.
Qed.
Definition hello : list ascii := ["h"; "e"; "l"; "l"; "o"]%char.
Lemma cyc_process : ∃ h e o w2, run (w_heap cyc_w) newEvent (line_ops 1 hello) = Ok (h, e, o) ∧
  Process cyc_pl (mkWorld h (w_events cyc_w ++ [e]) (w_env cyc_w) (w_log cyc_w)) (Some (length (w_events cyc_w))) = Ok (w2, Some 0%nat, None) ∧
  w_heap w2 = cyc_h ∧ w_events w2 !! 0%nat = Some (mkEvent (Some 0%nat)).
Proof. eexists _, _, _, _. split; [vm_compute; reflexivity|]. split; [vm_compute; reflexivity|]. split; vm_compute; reflexivity. Qed.
Lemma cyc_line f : process_line exact_decimal f cyc_pl (start cyc_w) 1 hello = Panic.
Proof.
  destruct cyc_process as (h & e & o & w2 & H1 & H2 & H3 & H4). unfold process_line, start. cbn [io_world io_failed].
  rewrite H1, H2, H4, H3, cyc_event. reflexivity.
Qed.
Theorem C45_cycle_kills_refuted : ∀ f, processInput exact_decimal f cyc_pl cyc_w None (hello ++ [nl]) false = Panic.
Proof.
  intros f. unfold processInput.
  assert (scan (hello ++ [nl]) [] 0 = ([hello], false)) as -> by (vm_compute; reflexivity).
  pose proof (blank_lines exact_decimal f cyc_pl (start cyc_w) hello ltac:(done) ltac:(vm_compute; reflexivity) 0 0) as E.
  cbn [repeat app] in E. unfold start in E. rewrite E. pose proof (cyc_line f) as E2. unfold start in E2.
  change ((0 + Z.of_nat 0 + 1) mod 2 ^ 64) with 1. rewrite E2. reflexivity.
Qed.
Print Assumptions C45_cycle_kills_refuted.
