(** * C58, C59: the C library and the browser function, copies included.

    As in CLibProps.v; [gsem_pipe b (planted fs)]: what the pipeline [b] does to an event
    with fields [fs] (C55); [writable_as G m], [unwritable G], [circular G]: writing the
    event [G] as JSON gives the fields [m]; fails; never ends (C56). *)
From Verif Require Import ShareLib BuiltinsProps CLibProps JsonGrammarProps.
From Coq Require Import Lia.
Local Open Scope Z_scope.

(** Once [b] is loaded, every sequence of calls replies to each text what [b] makes of
    it: the JSON of the fields, or a message if the text is no event, the pipeline fails
    or the result cannot be written.  No reply depends on earlier calls.  If for one of
    them the pipeline crashes or its result contains itself, the host program dies.
    ([fatal]: the pipeline [b] does one or the other to an event with fields [fs].  The
    event null is excluded; see C58_null_event_refuted.) *)
Definition fatal (b : bpipe) (fs : gomap tree) : Prop :=
  gsem_pipe b (planted fs) = Crashes ∨ ∃ G' counted, gsem_pipe b (planted fs) = Gives (G', None, counted) ∧ circular G'.
Lemma fatal_deadly b fs : fatal b fs ↔ deadly b fs.
Proof.
  unfold fatal, deadly. split.
  - intros [->|(G' & c & -> & H)]; done.
  - destruct (gsem_pipe b (planted fs)) as [[[G' [e|]] lg]| |]; [by intros []|intros H; right; eauto|by left|by intros []].
Qed.
Theorem C58_calls : ∀ fmt b s inputs, float_format fmt →
  (∃ pl, cl_pipe s = Some pl ∧ pipe_as (w_heap (cl_world s)) b pl) →
  Forall (λ c, match c with BSet _ t => in_range t | _ => True end) (pipe_confs b) →
  (∀ input, input ∈ inputs → ¬ document (c_string input) JNull) →
  (* 1. *)
  ((∀ input j fs, input ∈ inputs → readable (c_string input) j → means j (TObj fs) → ¬ fatal b fs) →
   ∃ N s' os, (∀ f, (N ≤ f)%nat → c_calls fmt f s inputs = Ok (s', os)) ∧
    Forall2 (λ input o,
      ((∀ j, ¬ readable (c_string input) j) → o = CMessage) ∧
      ∀ j fs, readable (c_string input) j → means j (TObj fs) →
        match gsem_pipe b (planted fs) with
        | Gives (G', None, _) =>
            (∀ m', writable_as G' m' → ∃ text j', o = CText text ∧ c_string text = text ∧ document text j' ∧ shown (TObj m') j') ∧
            (unwritable G' → o = CMessage)
        | Gives (_, Some _, _) => o = CMessage
        | Crashes | Shares => False
        end) inputs os) ∧
  (* 2. *)
  (∀ input j fs, input ∈ inputs → readable (c_string input) j → means j (TObj fs) → fatal b fs →
   ∀ f, c_calls fmt f s inputs = Panic).
Proof.
  intros fmt b s inputs Hf Hr Hc Hnull.
  assert (∀ t, ¬ document (c_string t) JNull → ∀ s, ready b s →
    ((∃ j fs, readable (c_string t) j ∧ means j (TObj fs) ∧ deadly b fs) ∧ ∀ f, c_process fmt f s t = Panic) ∨
    ((∀ j fs, readable (c_string t) j → means j (TObj fs) → ¬ deadly b fs) ∧
     ∃ N s1 o, (∀ f, (N ≤ f)%nat → c_process fmt f s t = Ok (s1, o)) ∧
      (∀ f, c_process fmt f s t = Panic ∨ c_process fmt f s t = Ok (s1, o)) ∧ ready b s1 ∧
      ((∀ j, ¬ readable (c_string t) j) → o = CMessage) ∧ (∀ j fs, readable (c_string t) j → means j (TObj fs) → greplies b fs o))) as Hone.
  { clear s inputs Hr Hnull. intros t Hn s Hr. destruct (text_cases (c_string t)) as [Hno|[?|(j & fs & Hj & Hm)]]; [|done|].
    - right. split; [intros j fs Hj; by apply Hno in Hj|]. exists O, s, CMessage.
      split_and!; try done; [intros; by apply call_refused|intros; right; by apply call_refused|intros j fs Hj; by apply Hno in Hj].
    - assert (∀ j2 fs2, readable (c_string t) j2 → means j2 (TObj fs2) → fs2 = fs) as Hsame.
      { intros j2 fs2 Hj2 Hfs2. pose proof Hj2 as (Hd2 & _). pose proof Hj as (Hd & _). assert (j2 = j) as -> by (by eapply C53_unambiguous).
        assert (TObj fs2 = TObj fs) as E by (by eapply C53_meaning_unique). by injection E. }
      destruct (gcall_sem fmt b s t j fs Hf Hr Hc Hj Hm) as [[Hd HP]|(Hnd & N & s' & o & H1 & H2 & H3 & H4)]; [left|right].
      + split; [by exists j, fs|done].
      + split; [intros j2 fs2 Hj2 Hm2; by rewrite (Hsame _ _ Hj2 Hm2)|]. exists N, s', o. split_and!; try done.
        * intros Hno. by apply Hno in Hj.
        * intros j2 fs2 Hj2 Hm2. by rewrite (Hsame _ _ Hj2 Hm2). }
  split.
  - revert s Hr Hnull. induction inputs as [|t l IH]; intros s Hr Hnull Hg.
    { exists O, s, []. split; [done|constructor]. }
    destruct (Hone t (Hnull t ltac:(left)) s Hr) as [[(j & fs & Hj & Hm & Hd) _]|(_ & N1 & s1 & o & H1 & _ & Hr1 & H2 & H3)].
    { exfalso. apply (Hg t j fs); [left|done|done|by apply fatal_deadly]. }
    destruct (IH s1 Hr1) as (N2 & s2 & os & H4 & H5).
    { intros input Hin. apply Hnull. by right. }
    { intros input j fs Hin. apply Hg. by right. }
    exists (N1 `max` N2)%nat, s2, (o :: os). split.
    { intros f Hfu. cbn [c_calls]. rewrite H1, H4 by lia. done. }
    constructor; [|done]. split; [done|]. intros j fs Hj Hfs. specialize (H3 j fs Hj Hfs). unfold greplies in H3.
    destruct (gsem_pipe b (planted fs)) as [[[G' [e|]] lg]| |]; try done. destruct H3 as [H3 H3']. split; [|done]. intros m' Hw.
    destruct (H3 m' Hw) as (text & j' & -> & Hd & Hs). exists text, j'. split_and!; try done. by eapply c_string_all, document_no_nul.
  - intros input j fs Hin Hj Hm Hd f. apply fatal_deadly in Hd. revert s Hr Hnull Hin. induction inputs as [|t l IH]; intros s Hr Hnull Hin; [by apply elem_of_nil in Hin|].
    cbn [c_calls]. destruct (Hone t (Hnull t ltac:(left)) s Hr) as [[_ HP]|(Hnd & N1 & s1 & o & _ & H1 & Hr1 & _)]; [by rewrite HP|].
    apply elem_of_cons in Hin as [->|Hin]; [by destruct (Hnd j fs Hj Hm)|].
    destruct (H1 f) as [->| ->]; [done|]. rewrite IH; [done|done| |done]. intros input' Hin'. apply Hnull. by right.
Qed.
Print Assumptions C58_calls.

(** The browser function: the object returned is the JSON of the result decoded again. *)
Theorem C59_executes : ∀ fmt lo up names r unpack w definition c b event j fs,
  float_format fmt → imports lo up names r → unpacks unpack (w_heap w) →
  definition_text definition c → defines lo up [] unpack names (w_heap w) c b →
  Forall (λ c, match c with BSet _ t => in_range t | _ => True end) (pipe_confs b) →
  readable event j → means j (TObj fs) →
  match gsem_pipe b (planted fs) with
  | Gives (G', None, _) =>
      (∀ m', writable_as G' m' →
         ∃ N j' fs', (∀ f, (N ≤ f)%nat → wasm_process unpack r fmt f w definition event = Ok (WObject (Some fs'))) ∧
           shown (TObj m') j' ∧ means j' (TObj fs')) ∧
      (* and otherwise panics *)
      (unwritable G' → ∃ N, ∀ f, (N ≤ f)%nat → wasm_process unpack r fmt f w definition event = Panic) ∧
      (circular G' → ∀ f, wasm_process unpack r fmt f w definition event = Panic)
  | Gives (_, Some _, _) => ∀ f, wasm_process unpack r fmt f w definition event = Ok (WMessage 3)
  | Crashes => ∀ f, wasm_process unpack r fmt f w definition event = Panic
  | Shares => False
  end.
Proof.
  intros fmt lo up names r unpack w definition c b event j fs Hf Him Hu Hc Hd Hb Hr Hm.
  destruct (C57_new_builds_what_is_defined lo up _ [] unpack names r _ c Him Hu) as [_ H]. destruct (H b Hd) as (pl & Hn & Hp). clear H.
  destruct (decode_event_reads w _ _ _ Hr Hm) as (h & e & fp & Hde & Hev & Hfe & Hst).
  set (w1 := mkWorld h (w_events w ++ [e]) (w_env w) (w_log w)) in *. set (i := length (w_events w)) in *.
  assert (pipe_as (w_heap w1) b pl) as Hp1. { eapply pipe_as_mono; [|exact Hp]. intros p t Hh. by eapply holds_stable. }
  assert (w_events w1 !! i = Some e) as Hi. { cbn [w1 w_events]. rewrite lookup_app_r by (unfold i; lia). unfold i. by rewrite Nat.sub_diag. }
  assert (showing w1 i fs fp) as Hs by (by exists e). assert (in_range (TObj fs)) as Hrg by (by eapply means_range).
  assert (∀ e, w_events w1 !! i = Some e → fields e ≠ None) as Hfe' by (intros; congruence).
  pose proof (gprocessed_text fmt b pl w1 i fs fp Hf Hp1 Hb Hs Hrg Hfe') as H. unfold wasm_process. rewrite (decode_def _ _ Hc). cbn [NewOf]. rewrite Hn, Hde.
  destruct (gsem_pipe b (planted fs)) as [[[G' err] lg]| |] eqn:Es; [|intros f; by rewrite H|done].
  destruct err as [err|].
  { intros f. destruct H as (w2 & HP & _). by rewrite HP. }
  destruct H as (w2 & HP & _ & _ & HG & H). rewrite HP. split_and!.
  - intros m' Hw. destruct H as [[Hci _]|(_ & N & o & Hr1 & _ & Ht & _)].
    { exfalso. destruct (writable_ends _ _ Hw) as (N & HN). pose proof (circular_ends _ Hci N) as Hx. rewrite HN in Hx by lia. done. }
    destruct (Ht m' Hw) as (text & j' & -> & Hdoc & Hwi & Hsh). inversion Hsh as [? Hin| | | | | | | |m0 js Hjs]; subst.
    { rewrite !elem_of_cons, elem_of_nil in Hin. destruct_or!; done. }
    pose proof (document_valid _ _ Hdoc) as Hv. apply parse_iff in Hdoc.
    assert (in_range (TObj m')) as Hrg' by (eapply shows_range; [exact HG|apply Hw]).
    destruct (shown_means _ _ Hsh Hrg') as [t Ht0]. pose proof Ht0 as Ht'. inversion Ht' as [| | | | |? ? fs' _ _]; subst.
    exists N, (JObj js), fs'. split_and!; [|done|done]. intros f Hfu. unfold to_object. rewrite (Hr1 f Hfu), Hdoc.
    apply within_iff in Hwi; [|lia]. change 10000 with maxNestingDepth in Hwi. apply Z.leb_le in Hwi. rewrite Hwi.
    apply means_iff in Ht0; [|done].
    assert (value_of_json (JObj js) = match fields_of_json js with Some ts => Some (TObj (mof_list ts)) | None => None end) as E by done.
    rewrite Ht0 in E. destruct (fields_of_json js); [|done]. by injection E as ->.
  - intros Hu'. destruct H as [[Hci _]|(_ & N & o & Hr1 & _ & _ & Ht)].
    { exfalso. destruct (unwritable_ends _ Hu') as (N & HN). pose proof (circular_ends _ Hci N) as Hx. rewrite HN in Hx by lia. done. }
    exists N. intros f Hfu. unfold to_object. rewrite (Hr1 f Hfu). by rewrite (Ht Hu').
  - intros Hci f. destruct H as [[_ HPa]|[Hn' _]]; [|done]. unfold to_object. by rewrite HPa.
Qed.
Print Assumptions C59_executes.

(** The example of C58_ex meets the hypotheses: not fatal, and the result can be written. *)
Example C58_ex_shared : ∃ G' counted,
  gsem_pipe cl_b (planted [("a", TObj [("b", TStr "A")]); ("n", TArr [TNil; TBool true])]) = Gives (G', None, counted) ∧
  writable_as G' [("a", TObj [("b", TStr "A")]); ("c", TStr "a"); ("n", TArr [TNil; TBool true])] ∧
  ¬ fatal cl_b [("a", TObj [("b", TStr "A")]); ("n", TArr [TNil; TBool true])] ∧ fatal cl_b [("a", TNil)].
Proof.
  assert (∃ G' counted,
    gsem_pipe cl_b (planted [("a", TObj [("b", TStr "A")]); ("n", TArr [TNil; TBool true])]) = Gives (G', None, counted) ∧
    writable_as G' [("a", TObj [("b", TStr "A")]); ("c", TStr "a"); ("n", TArr [TNil; TBool true])]) as (G' & counted & E & Hw).
  { eexists _, _. split; [vm_compute; reflexivity|]. split.
    - unfold shows. cbn [g_root]. eapply un_obj; [reflexivity|]. apply Forall2_cons. split; [split; [reflexivity|]|].
      { eapply un_obj; [reflexivity|]. apply Forall2_cons. split; [split; [reflexivity|by constructor]|constructor]. }
      apply Forall2_cons. split; [split; [reflexivity|by constructor]|]. apply Forall2_cons. split; [split; [reflexivity|]|constructor].
      eapply un_arr; [reflexivity|]. apply Forall2_cons; split; [by constructor|]. apply Forall2_cons; split; [by constructor|constructor].
    - split; [|cbn; lia]. cbn. tauto. }
  exists G', counted. split_and!; [done|done| |left; vm_compute; reflexivity].
  intros [H|(G2 & c2 & H & Hc)]; [congruence|]. assert (G2 = G') as -> by congruence.
  destruct (writable_ends _ _ Hw) as (N & HN). pose proof (circular_ends _ Hc N) as Hx. rewrite HN in Hx by lia. done.
Qed.
