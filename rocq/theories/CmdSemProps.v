(** * C56: the sawmill command, from bytes to bytes.

    [processInput fmt f pl w None bytes readerr]: the command's loop over its input
    [bytes]; see Cmd.v and CmdProps.v ([text_lines], [numbered], [upto_long]).
    [sem_pipe b]: what the pipeline configured as [b] does to fields (PipeSpec.v).
    [document text j]: [text] is a JSON text of the value [j]; [shown t j]: [j] shows [t]
    (JsonGrammar.v, JsonMeaning.v). *)
From Verif Require Import CmdSem CmdProps.
From Coq Require Import Lia.
Local Open Scope Z_scope.

(** A line that is not blank, the n-th, makes an event with its number and its text, and
    the output is the JSON of what the pipeline makes of it; if the pipeline fails or
    the result cannot be written as JSON, its number is reported instead. *)
Theorem C56_command_without_sharing : ∀ fmt b pl w bytes readerr ls,
  float_format fmt → pipe_as (w_heap w) b pl →
  Forall (λ c, match c with BSet _ t => in_range t | _ => True end) (pipe_confs b) →
  text_lines bytes ls →
  (* nothing is shared: always so without copy_from (C55_no_copy) *)
  (∀ n line, (n, line) ∈ numbered (upto_long ls) → sem_pipe b (line_fields n line) ≠ Shares) →
  ∃ N s err os, (∀ f, (N ≤ f)%nat → processInput fmt f pl w None bytes readerr = Ok (s, err)) ∧
    Forall2 (λ x o,
      match sem_pipe b [("@metadata", TObj [("line_number", TUint x.1)]);
                        ("event", TObj [("original", TStr (string_of_list_ascii x.2))])] with
      | Gives (m', None, _) =>
          (¬ has_nonfinite (TObj m') ∧ tdepth (TObj m') ≤ 10000 →
             ∃ text j, o = Some text ∧ document text j ∧ shown (TObj m') j) ∧
          (¬ (¬ has_nonfinite (TObj m') ∧ tdepth (TObj m') ≤ 10000) → o = None)
      | Gives (_, Some _, _) => o = None
      | Crashes | Shares => False
      end) (numbered (upto_long ls)) os ∧
    io_out s = concat (map (λ o, match o with Some t => t ++ [nl] | None => [] end) os) ∧
    io_reported s = (filter (λ x, x.2 = None) (zip (numbered (upto_long ls)) os)).*1.*1 ∧
    (err = true ↔ readerr = true ∨ Exists (λ l, 65536 ≤ Z.of_nat (length l)) ls) ∧
    w_log (io_world s) = w_log w ++ concat (map (λ x,
      match sem_pipe b (line_fields x.1 x.2) with Gives (_, _, counted) => counted | _ => [] end) (numbered (upto_long ls))).
Proof.
  intros fmt b pl w bytes readerr ls Hf Hp Hc Hls Hns.
  assert (∀ n l, numbered_from n (map dropCR l) = numbered_from n l) as Hd.
  { intros n l. revert n. induction l as [|x l IH]; intros n; [done|]. cbn [map numbered_from].
    rewrite trim_dropCR. destruct (trim x); by rewrite IH. }
  destruct (lines_sem fmt b pl (map dropCR (upto_long ls)) Hf Hc (start w) 0 ltac:(lia) Hp eq_refl eq_refl) as (N & s & os & H1 & H2 & H3 & H4 & H5).
  { intros [n line] Hx. rewrite Hd, numbered_eq in Hx. by apply Hns. }
  rewrite Hd, numbered_eq in *. exists N, s, (bool_decide (Exists (λ l, maxLine ≤ Z.of_nat (length l)) ls) || readerr), os. split_and!; try done.
  - intros f Hfu. unfold processInput. rewrite (scan_lines _ _ Hls). fold (start w). by rewrite (H1 f Hfu).
  - rewrite orb_true_iff, bool_decide_eq_true. unfold maxLine. tauto.
Qed.
Print Assumptions C56_command_without_sharing.
Theorem C56_never_crashes : ∀ fmt b pl w bytes readerr,
  float_format fmt → pipe_as (w_heap w) b pl →
  Forall (λ c, match c with BSet _ t => in_range t | BCopy _ _ => False | _ => True end) (pipe_confs b) →
  ∃ N, ∀ f, (N ≤ f)%nat → processInput fmt f pl w None bytes readerr ≠ Panic.
Proof.
  intros fmt b pl w bytes readerr Hf Hp Hc. destruct (C45_lines_exist bytes) as [ls Hls].
  destruct (C56_command_without_sharing fmt b pl w bytes readerr ls Hf Hp) as (N & s & err & os & H & _); [|done| |].
  - eapply Forall_impl; [exact Hc|]. by intros [].
  - intros n line _. apply sem_pipe_shares. eapply Forall_impl; [exact Hc|]. by intros [].
  - exists N. intros f Hfu. by rewrite (H f Hfu).
Qed.
Print Assumptions C56_never_crashes.

(** The pipeline of CmdProps.v and its input, whose output is in C45_ex. *)
Definition cmd_b : bpipe := mkBPipe
  [BProc "p.processors[0].set" false false [] (BSet "k" (TBool true));
   BProc "p.processors[1].lowercase" false false [] (BLowercase (λ _, "low") "event.original" "l")] [].
Example C56_ex : pipe_as (w_heap cmd_w) cmd_b cmd_pl ∧
  Forall (λ c, match c with BSet _ t => in_range t | BCopy _ _ => False | _ => True end) (pipe_confs cmd_b) ∧
  sem_pipe cmd_b (line_fields 3 ["x"%char]) =
    Gives ([("@metadata", TObj [("line_number", TUint 3)]); ("event", TObj [("original", TStr "x")]); ("k", TBool true); ("l", TStr "low")], None,
      [("p.processors[0].set", MIn); ("p.processors[0].set", MOut); ("p.processors[1].lowercase", MIn); ("p.processors[1].lowercase", MOut)]).
Proof.
  split_and!.
  - split; [|constructor]. unfold cmd_b, cmd_pl. cbn [bp_processors pl_processors].
    assert (holds (w_heap cmd_w) 0 (TBool true)) by (by exists (mkBool true)).
    repeat (apply Forall2_cons; split); [| |apply Forall2_nil_2]; repeat constructor; done.
  - repeat constructor.
  - vm_compute. reflexivity.
Qed.

(** ** Reading the output *)
Lemma MarshalText_document fmt f h e t : float_format fmt → MarshalText fmt f h e = Ok (Some t) →
  ∃ j, document t j ∧ (j = JNull ∨ ∃ m, j = JObj m).
Proof.
  intros Hf. unfold MarshalText, MarshalEvent. destruct (fields e) as [r|].
  - destruct (jmapM _ (map_of h (Some r))) as [[js|]|] eqn:E; cbn [jbind]; [|done|done].
    unfold jret, scanned. cbn [jbind]. destruct (_ <=? _); cbn [jbind]; [|done]. intros Ht. injection Ht as <-.
    exists (jfix (JObj js)). split; [|right; cbn [jfix]; by eexists]. apply parse_iff, (parse_render (JObj js)), jwf_obj. apply jmember_ok in E.
    apply Forall_forall. intros j Hj. apply elem_of_list_lookup in Hj as [i Hj].
    destruct (Forall2_lookup_r _ _ _ _ _ E Hj) as (x & _ & _ & Hx). by eapply valueJSON_jwf.
  - unfold jret, scanned. cbn [jbind]. destruct (_ <=? _); cbn [jbind]; [|done]. intros Ht. injection Ht as <-.
    exists JNull. split; [|by left]. apply parse_iff. apply (parse_render JNull). done.
Qed.
Lemma lines_of_texts (os : list (option (list ascii))) : Forall (λ o, match o with Some t => Forall printable t | None => True end) os →
  text_lines (concat (map (λ o, match o with Some t => t ++ [nl] | None => [] end) os)) (omap id os).
Proof.
  induction 1 as [|[t|] os Ht _ IH]; [constructor| |exact IH]. cbn. rewrite <- app_assoc. apply tl_line; [|exact IH].
  intros Hin. rewrite Forall_forall in Ht. apply Ht in Hin. unfold printable in Hin. vm_compute in Hin. tauto.
Qed.
Lemma omap_filter_length {A B} (xs : list A) (os : list (option B)) : length os = length xs →
  (length (omap id os) + length (filter (λ x, x.2 = None) (zip xs os)).*1 = length xs)%nat.
Proof.
  revert xs. induction os as [|o os IH]; intros [|x xs] H; try done. injection H as H. specialize (IH xs H). cbn [zip zip_with].
  rewrite filter_cons. destruct o as [t|]; cbn [id omap list_omap snd].
  - rewrite decide_False by done. cbn [length]. lia.
  - rewrite decide_True by done. cbn [fmap list_fmap length]. lia.
Qed.
(** Whoever reads the output line by line gets a JSON text on every line, an object or null,
    and one for every line read that is not reported.  ([C45_one_output_per_line_partial] has
    the same hypotheses; cases are beside it.) *)
Theorem C45_output_lines : ∀ fmt f pl w bytes readerr ls s err,
  float_format fmt → text_lines bytes ls →
  processInput fmt f pl w None bytes readerr = Ok (s, err) →
  ∃ ts, text_lines (io_out s) ts ∧ (∀ ts', text_lines (io_out s) ts' → ts' = ts) ∧
    Forall (λ t, ∃ j, document t j ∧ (j = JNull ∨ ∃ m, j = JObj m)) ts ∧
    (length ts + length (io_reported s) = length (numbered (upto_long ls)))%nat.
Proof.
  intros fmt f pl w bytes readerr ls s err Hf Hls H.
  destruct (C45_one_output_per_line_partial fmt f pl w bytes readerr ls s err Hf Hls H) as (os & Hs & Hl & Ho & Hp & Hr & _).
  pose proof (lines_of_texts os Hp) as Ht. rewrite <- Ho in Ht. exists (omap id os). split; [exact Ht|]. split; [|split].
  - intros ts' Ht'. symmetry. by eapply text_lines_unique.
  - clear -Hs Hf. induction Hs as [| |w0 n line l0 w1 i w2 e o w' os' _ _ _ Hm _ IHs]; [constructor|done|]. destruct o as [t|]; [|done]. cbn. constructor; [|done]. by eapply MarshalText_document.
  - rewrite Hr, !map_length. rewrite <- (omap_filter_length (numbered (upto_long ls)) os Hl). by rewrite map_length.
Qed.
Print Assumptions C45_output_lines.
