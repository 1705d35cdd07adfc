(** * C58, C59: the C library and the browser function.

    [c_load unpack r s input], [c_process fmt f s input]: the exported functions Load and
    Process (examples/c/cshared/main.go) called with the C string in the memory [input],
    [s] being the library's state; [c_calls]: calls of Process one after the other.
    [CText t]: the JSON text [t] is returned; [CMessage]: an error message is.
    [wasm_process …]: pipeline_execute of examples/wasm/wasm.go.
    [imports lo up names r]: the program imports these processors (BuiltinsProps.v).
    [def_means j c]: JSON [j] says the definition [c] (C61); [defines … c b]: the
    definition [c] says [b] (C57); [sem_pipe b]: what [b] does to fields (C55);
    [readable text j], [means j t], [document text j], [shown t j]: JSON (C53). *)
From Verif Require Import CLib BuiltinsProps JsonGrammarProps ConfigMeaning ConfigMeaningProps.
From Coq Require Import Lia.
Local Open Scope Z_scope.

(** ** Loading *)
Lemma builtins_sound lo up names r (unpack : string → cfgmap → bcfg + goerr) h : imports lo up names r → unpacks unpack h → sound_constructors unpack r.
Proof.
  intros Him Hu ty k v Hk [m Hm]. apply (imported_holds _ _ _ _ Him) in Hk as (_ & zero & Hz & ->). cbn [c_cfgtype c_call c_err_nilable] in *.
  split; [done|]. destruct (Hu _ _ _ Hm) as [Hty _]. cbn [new_func f_call]. rewrite Hty, String.eqb_refl. unfold construct.
  eexists _, _. split; [reflexivity|]. cbn [pr_config]. by intros m' [= <-] _.
Qed.
(** A text is the definition [c]: it is JSON that says [c] (C61), and not null. *)
Definition definition_text (text : list ascii) (c : config cfgmap) : Prop :=
  ∃ j, document text j ∧ within 10000 j ∧ def_means j c ∧ j ≠ JNull.
Definition no_definition (text : list ascii) : Prop := ∀ j c, document text j → within 10000 j → ¬ def_means j c.
Lemma decode_def text c : definition_text text c → decode_definition text = Some (Some c).
Proof.
  intros (j & Hd & Hw & Hm & Hn). assert (UnmarshalConfig text = Some c) as E by (apply C61_definition; eauto).
  unfold decode_definition. rewrite E. apply parse_iff in Hd. rewrite Hd. by destruct j.
Qed.
Lemma decode_def_none text : no_definition text → decode_definition text = None.
Proof.
  intros H. assert (UnmarshalConfig text = None) as E.
  { destruct (UnmarshalConfig text) as [c|] eqn:E; [|done]. apply C61_definition in E as (j & Hd & Hw & Hm). by destruct (H j c Hd Hw). }
  unfold decode_definition. rewrite E. destruct (parse text) as [[]|] eqn:Ep; try done.
  unfold UnmarshalConfig in E. rewrite Ep in E. vm_compute in E. done.
Qed.
(** A text that is no definition is refused, and the pipeline loaded before stays. *)
Theorem C58_load_refuses : ∀ unpack r s input, no_definition (c_string input) →
  c_load unpack r s input = Ok (s, 1).
Proof. intros unpack r s input H. unfold c_load. by rewrite decode_def_none. Qed.
Print Assumptions C58_load_refuses.
(** A definition that says [b] is loaded; the library then does [b]. *)
Theorem C58_load_accepts : ∀ lo up names r unpack s input c b,
  imports lo up names r → unpacks unpack (w_heap (cl_world s)) →
  definition_text (c_string input) c → defines lo up [] unpack names (w_heap (cl_world s)) c b →
  ∃ pl, c_load unpack r s input = Ok (mkCLib (cl_world s) (Some pl), 0) ∧ pipe_as (w_heap (cl_world s)) b pl.
Proof.
  intros lo up names r unpack s input c b Him Hu Hc Hd.
  destruct (C57_new_builds_what_is_defined lo up _ [] unpack names r _ c Him Hu) as [_ H]. destruct (H b Hd) as (pl & Hn & Hp).
  exists pl. split; [|done]. unfold c_load. rewrite (decode_def _ _ Hc). cbn [NewOf]. by rewrite Hn.
Qed.
Print Assumptions C58_load_accepts.
(** A definition that says nothing, say with an unknown processor, is refused, and the
    pipeline loaded before is lost. *)
Theorem C58_load_forgets : ∀ lo up names r unpack s input c,
  imports lo up names r → unpacks unpack (w_heap (cl_world s)) →
  definition_text (c_string input) c → (∀ b, ¬ defines lo up [] unpack names (w_heap (cl_world s)) c b) →
  c_load unpack r s input = Ok (mkCLib (cl_world s) None, 1).
Proof.
  intros lo up names r unpack s input c Him Hu Hc Hd.
  destruct (C57_new_builds_what_is_defined lo up _ [] unpack names r _ c Him Hu) as [H _].
  pose proof (New_returns [] unpack r c (builtins_sound _ _ _ _ _ _ Him Hu)) as Hp.
  unfold c_load. rewrite (decode_def _ _ Hc). cbn [NewOf]. destruct (New [] unpack r c) as [[pl|e]|]; [|done|done].
  destruct (H pl eq_refl) as (b & Hb & _). by apply Hd in Hb.
Qed.
Print Assumptions C58_load_forgets.
(** The definition null crashes the host program. *)
Theorem C58_load_null_refuted : ∀ unpack r s input, document (c_string input) JNull → c_load unpack r s input = Panic.
Proof. intros unpack r s input H. apply parse_iff in H. unfold c_load, decode_definition. by rewrite H. Qed.
Print Assumptions C58_load_null_refuted.

(** ** Processing *)
(** Once [b] is loaded, every sequence of calls replies to each text what [b] makes of
    it: the JSON of the fields, or a message if the text is no event, the pipeline fails
    or the result cannot be written.  No reply depends on earlier calls. *)
Theorem C58_calls_without_sharing : ∀ fmt b s inputs, float_format fmt →
  (∃ pl, cl_pipe s = Some pl ∧ pipe_as (w_heap (cl_world s)) b pl) →
  Forall (λ c, match c with BSet _ t => in_range t | _ => True end) (pipe_confs b) →
  (* the null event and events that crash the pipeline are excluded, see below *)
  (∀ input, input ∈ inputs → ¬ document (c_string input) JNull) →
  (∀ input j fs, input ∈ inputs → readable (c_string input) j → means j (TObj fs) → ∃ a, sem_pipe b fs = Gives a) →
  ∃ N s' os, (∀ f, (N ≤ f)%nat → c_calls fmt f s inputs = Ok (s', os)) ∧
    Forall2 (λ input o,
      ((∀ j, ¬ readable (c_string input) j) → o = CMessage) ∧
      ∀ j fs, readable (c_string input) j → means j (TObj fs) →
        match sem_pipe b fs with
        | Gives (m', None, _) =>
            (¬ has_nonfinite (TObj m') ∧ tdepth (TObj m') ≤ 10000 →
               ∃ text j', o = CText text ∧ c_string text = text ∧ document text j' ∧ shown (TObj m') j') ∧
            (¬ (¬ has_nonfinite (TObj m') ∧ tdepth (TObj m') ≤ 10000) → o = CMessage)
        | _ => o = CMessage
        end) inputs os.
Proof.
  intros fmt b s inputs Hf Hr Hc. revert s Hr. induction inputs as [|t l IH]; intros s Hr Hnull Hg.
  { exists O, s, []. split; [done|constructor]. }
  assert (∃ N s1 o, (∀ f, (N ≤ f)%nat → c_process fmt f s t = Ok (s1, o)) ∧ ready b s1 ∧
    ((∀ j, ¬ readable (c_string t) j) → o = CMessage) ∧ (∀ j fs, readable (c_string t) j → means j (TObj fs) → replies b fs o)) as (N1 & s1 & o & H1 & Hr1 & H2 & H3).
  { destruct (parse (c_string t)) as [j|] eqn:Ep.
    2:{ assert (∀ j, ¬ readable (c_string t) j) as Hno by (intros j (Hd & _); apply parse_iff in Hd; congruence).
        exists O, s, CMessage. split_and!; try done; [intros; by apply call_refused|]. intros j fs Hj. by apply Hno in Hj. }
    apply parse_iff in Ep.
    destruct (UnmarshalText emptyHeap newEvent (c_string t)) as [[h e] [|]] eqn:Eu.
    - assert (∀ j, ¬ readable (c_string t) j) as Hno.
      { intros j' Hj. destruct (C53_reads emptyHeap newEvent _ _ Hj) as (? & ? & E & _). congruence. }
      exists O, s, CMessage. split_and!; try done; [intros; by apply call_refused|]. intros j' fs Hj. by apply Hno in Hj.
    - assert (∃ j', readable (c_string t) j') as (j' & Hj').
      { unfold UnmarshalText, UnmarshalEvent in Eu. pose proof (proj2 (parse_iff _ _) Ep) as Ep'. rewrite Ep' in Eu. destruct (jdepth j <=? maxNestingDepth) eqn:El; [|done].
        assert (within 10000 j) as Hw by (apply within_iff; [lia|]; apply Z.leb_le in El; exact El).
        pose proof (document_valid _ _ Ep) as Hv. destruct j as [| | | | |m]; try done.
        - exists JNull. split_and!; [done|done|by left].
        - destruct (fields_of_json m) as [ts|] eqn:Ef; [|done]. exists (JObj m). split_and!; [done|done|]. right. exists m, (mof_list ts). split; [done|].
          by apply (means_obj m ts). }
      pose proof Hj' as (Hd & _ & Hcase). destruct Hcase as [->|(m & fs & Hm & Hfs)].
      { exfalso. apply (Hnull t); [left|done]. }
      destruct (Hg t j' fs) as (a & Ha); [left|done|done|].
      destruct (call_sem fmt b s t j' fs Hf Hr Hc Hj' Hfs) as [_ H]; [congruence|].
      destruct H as (N & s1 & o & H1 & H2 & H3); [congruence|]. exists N, s1, o. split_and!; try done.
      + intros Hno. by apply Hno in Hj'.
      + intros j2 fs2 Hj2 Hfs2. pose proof Hj2 as (Hd2 & _). assert (j2 = j') as -> by (by eapply C53_unambiguous).
        assert (TObj fs2 = TObj fs) as E by (by eapply C53_meaning_unique). injection E as ->. done. }
  destruct (IH s1 Hr1) as (N2 & s2 & os & H4 & H5).
  { intros input Hin. apply Hnull. by right. }
  { intros input j fs Hin. apply Hg. by right. }
  exists (N1 `max` N2)%nat, s2, (o :: os). split.
  { intros f Hfu. cbn [c_calls]. rewrite H1, H4 by lia. done. }
  constructor; [|done]. split; [done|]. intros j fs Hj Hfs. specialize (H3 j fs Hj Hfs). unfold replies in H3.
  destruct (sem_pipe b fs) as [[[m' [e|]] lg]| |]; try done. destruct H3 as [H3 H3']. split; [|done]. intros Hw.
  destruct (H3 Hw) as (text & j' & -> & Hd & Hs). exists text, j'. split_and!; try done. by eapply c_string_all, document_no_nul.
Qed.
Print Assumptions C58_calls_without_sharing.
(** With every option and every event without null values the condition is met. *)
Theorem C58_no_crash_without_sharing : ∀ b fs, Forall (λ c, match c with BSet _ t => tclean t | BCopy _ _ => False | _ => True end) (pipe_confs b) →
  mclean fs → ∃ a, sem_pipe b fs = Gives a.
Proof.
  intros b fs Hb Hm. pose proof (clean_keeps b) as H. assert (sem_pipe b fs ≠ Shares) as Hs.
  { apply sem_pipe_shares. eapply Forall_impl; [exact Hb|]. by intros []. }
  specialize (H ltac:(eapply Forall_impl; [exact Hb|]; by intros []) fs Hm). destruct (sem_pipe b fs); [by eexists|done|done].
Qed.
Print Assumptions C58_no_crash_without_sharing.
(** Process panics, and with it the host program: before a successful Load, *)
Theorem C58_not_loaded_refuted : ∀ fmt f s input j, cl_pipe s = None → readable (c_string input) j → c_process fmt f s input = Panic.
Proof.
  intros fmt f s input j Hs Hr. unfold c_process. rewrite Hs. destruct (decode_event _ _) as [[]|] eqn:E; [done|].
  unfold decode_event in E. destruct (C53_reads (w_heap (cl_world s)) newEvent _ _ Hr) as (h & e & Hu & _). rewrite Hu in E.
  destruct (parse (c_string input)) as [[]|]; done.
Qed.
Print Assumptions C58_not_loaded_refuted.
(** for the event null, if the pipeline begins with lowercase, the only one imported, *)
Theorem C58_null_event_refuted : ∀ fmt f s input pl id cond ignf ignm onf lo c l,
  document (c_string input) JNull → cl_pipe s = Some pl →
  pl_processors pl = PProc id cond ignf ignm onf (lowercase_process lo c) :: l → c_process fmt f s input = Panic.
Proof.
  intros fmt f s input pl id cond ignf ignm onf lo c l Hd Hs Hpl. apply parse_iff in Hd. unfold c_process, decode_event. rewrite Hd, Hs.
  unfold Process, pl_process. rewrite Hpl. cbn [run_list pp_process]. done.
Qed.
Print Assumptions C58_null_event_refuted.
(** and for events with a null where a processor looks deeper. *)
Theorem C58_null_field_refuted : ∀ fmt b s input j fs, float_format fmt →
  (∃ pl, cl_pipe s = Some pl ∧ pipe_as (w_heap (cl_world s)) b pl) →
  Forall (λ c, match c with BSet _ t => in_range t | _ => True end) (pipe_confs b) →
  readable (c_string input) j → means j (TObj fs) → sem_pipe b fs = Crashes → ∀ f, c_process fmt f s input = Panic.
Proof.
  intros fmt b s input j fs Hf Hr Hc Hj Hm Hs. destruct (call_sem fmt b s input j fs Hf Hr Hc Hj Hm) as [H _]; [congruence|].
  by apply H.
Qed.
Print Assumptions C58_null_field_refuted.

(** ** The browser function *)
(** The object returned is the JSON of the result decoded again. *)
Theorem C59_executes_without_sharing : ∀ fmt lo up names r unpack w definition c b event j fs,
  float_format fmt → imports lo up names r → unpacks unpack (w_heap w) →
  definition_text definition c → defines lo up [] unpack names (w_heap w) c b →
  Forall (λ c, match c with BSet _ t => in_range t | _ => True end) (pipe_confs b) →
  readable event j → means j (TObj fs) →
  match sem_pipe b fs with
  | Gives (m', None, _) =>
      (¬ has_nonfinite (TObj m') ∧ tdepth (TObj m') ≤ 10000 →
         ∃ N j' fs', (∀ f, (N ≤ f)%nat → wasm_process unpack r fmt f w definition event = Ok (WObject (Some fs'))) ∧
           shown (TObj m') j' ∧ means j' (TObj fs')) ∧
      (* and otherwise panics *)
      (¬ (¬ has_nonfinite (TObj m') ∧ tdepth (TObj m') ≤ 10000) →
         ∃ N, ∀ f, (N ≤ f)%nat → wasm_process unpack r fmt f w definition event = Panic)
  | Gives (_, Some _, _) => ∀ f, wasm_process unpack r fmt f w definition event = Ok (WMessage 3)
  | Crashes => ∀ f, wasm_process unpack r fmt f w definition event = Panic
  | Shares => True (* not covered, as in C55 *)
  end.
Proof.
  intros fmt lo up names r unpack w definition c b event j fs Hf Him Hu Hc Hd Hb Hr Hm.
  destruct (C57_new_builds_what_is_defined lo up _ [] unpack names r _ c Him Hu) as [_ H]. destruct (H b Hd) as (pl & Hn & Hp). clear H.
  destruct (decode_event_reads w _ _ _ Hr Hm) as (h & e & fp & Hde & Hev & Hfe & Hst).
  set (w1 := mkWorld h (w_events w ++ [e]) (w_env w) (w_log w)) in *. set (i := length (w_events w)) in *.
  assert (pipe_as (w_heap w1) b pl) as Hp1. { eapply pipe_as_mono; [|exact Hp]. intros p t Hh. by eapply holds_stable. }
  assert (w_events w1 !! i = Some e) as Hi. { cbn [w1 w_events]. rewrite lookup_app_r by (unfold i; lia). unfold i. by rewrite Nat.sub_diag. }
  pose proof (processed_text fmt b pl w1 i fs fp Hf Hp1 Hb) as H. unfold wasm_process. rewrite (decode_def _ _ Hc). cbn [NewOf]. rewrite Hn, Hde.
  destruct (sem_pipe b fs) as [[[m' err] lg]| |] eqn:Es; [|intros f; by rewrite H; [|by exists e|by eapply means_range|intros; congruence]|done].
  destruct err as [err|].
  { intros f. destruct H as (w2 & HP & _); [by exists e|by eapply means_range|intros; congruence|]. by rewrite HP. }
  destruct H as (w2 & N & o & HP & _ & _ & Hr1 & Hr2 & Hr3); [by exists e|by eapply means_range|intros; congruence|]. split.
  - intros Hw. destruct (Hr2 Hw) as (text & j' & -> & Hdoc & Hwi & Hsh). inversion Hsh as [? Hin| | | | | | | |m0 js Hjs]; subst.
    { rewrite !elem_of_cons, elem_of_nil in Hin. destruct_or!; done. }
    pose proof (document_valid _ _ Hdoc) as Hv. apply parse_iff in Hdoc.
    assert (in_range (TObj m')) as Hrg.
    { pose proof (range_keeps b (fine_in_range _ _ _ Hp1 Hb) fs) as Hk. rewrite Es in Hk. apply Hk. by eapply means_range. }
    destruct (shown_means _ _ Hsh Hrg) as [t Ht]. pose proof Ht as Ht'. inversion Ht' as [| | | | |? ? fs' _ _]; subst.
    exists N, (JObj js), fs'. split_and!; [|done|done]. intros f Hfu. rewrite HP. unfold to_object. rewrite (Hr1 f Hfu), Hdoc.
    apply within_iff in Hwi; [|lia]. change 10000 with maxNestingDepth in Hwi. apply Z.leb_le in Hwi. rewrite Hwi.
    apply means_iff in Ht; [|done].
    assert (value_of_json (JObj js) = match fields_of_json js with Some ts => Some (TObj (mof_list ts)) | None => None end) as E by done.
    rewrite Ht in E. destruct (fields_of_json js); [|done]. by injection E as ->.
  - intros Hw. exists N. intros f Hfu. rewrite HP. unfold to_object. rewrite (Hr1 f Hfu). by rewrite (Hr3 Hw).
Qed.
Print Assumptions C59_executes_without_sharing.
(** Texts that are no definition, definitions that say nothing and texts that are no
    event are answered with a message each. *)
Theorem C59_refuses : ∀ fmt f lo up names r unpack w definition event,
  imports lo up names r → unpacks unpack (w_heap w) →
  (no_definition definition → wasm_process unpack r fmt f w definition event = Ok (WMessage 0)) ∧
  (∀ c, definition_text definition c →
     ((∀ b, ¬ defines lo up [] unpack names (w_heap w) c b) → wasm_process unpack r fmt f w definition event = Ok (WMessage 1)) ∧
     ((∃ b, defines lo up [] unpack names (w_heap w) c b) → (∀ j, ¬ readable event j) →
        wasm_process unpack r fmt f w definition event = Ok (WMessage 2))).
Proof.
  intros fmt f lo up names r unpack w definition event Him Hu. split; [|intros c Hc; split].
  - intros H. unfold wasm_process. by rewrite decode_def_none.
  - intros Hd. destruct (C57_new_builds_what_is_defined lo up _ [] unpack names r _ c Him Hu) as [H _].
    pose proof (New_returns [] unpack r c (builtins_sound _ _ _ _ _ _ Him Hu)) as Hp.
    unfold wasm_process. rewrite (decode_def _ _ Hc). cbn [NewOf]. destruct (New [] unpack r c) as [[pl|e]|]; [|done|done].
    destruct (H pl eq_refl) as (b & Hb & _). by apply Hd in Hb.
  - intros [b Hb] Hno. destruct (C57_new_builds_what_is_defined lo up _ [] unpack names r _ c Him Hu) as [_ H]. destruct (H b Hb) as (pl & Hn & _).
    unfold wasm_process. rewrite (decode_def _ _ Hc). cbn [NewOf]. rewrite Hn. by rewrite decode_event_refuses.
Qed.
Print Assumptions C59_refuses.
(** The definition null panics. *)
Theorem C59_null_refuted : ∀ fmt f unpack r w definition event, document definition JNull →
  wasm_process unpack r fmt f w definition event = Panic.
Proof. intros fmt f unpack r w definition event H. apply parse_iff in H. unfold wasm_process, decode_definition. by rewrite H. Qed.
Print Assumptions C59_null_refuted.

(** ** Examples *)
Definition cl_unpack (ty : string) (m : cfgmap) : bcfg + goerr :=
  if String.eqb ty "lowercase.Config" then
    match mget "field" m with
    | Some (TStr f) => inl (CfLowercase f (match mget "target_field" m with Some (TStr t) => t | _ => "" end) false)
    | _ => Datatypes.inr (EMsg "missing required field")
    end
  else Datatypes.inr (EMsg "not used").
Lemma cl_unpacks h : unpacks cl_unpack h.
Proof.
  intros ty m v. unfold cl_unpack. destruct (String.eqb_spec ty "lowercase.Config") as [->|?]; [|done].
  destruct (mget "field" m) as [[]|]; try done. by intros [= <-].
Qed.
Definition cl_def : list ascii := chars "{""id"":""p"",""processors"":[{""lowercase"":{""field"":""a.b"",""target_field"":""c""}}]}".
Definition cl_b : bpipe := mkBPipe [BProc "p.processors[0].lowercase" false false [] (BLowercase ex_lo "a.b" "c")] [].
Definition cl_s : clib := mkCLib (mkWorld emptyHeap [] [] []) None.
Definition cl_event : list ascii := chars "{""a"":{""b"":""A""},""n"":[null,true]}".
(** The hypotheses of the theorems hold for this definition and event, *)
Example C58_ex : ∃ r c j, imports ex_lo ex_lo ["lowercase"] r ∧ definition_text (c_string cl_def) c ∧
  defines ex_lo ex_lo [] cl_unpack ["lowercase"] (w_heap (cl_world cl_s)) c cl_b ∧
  readable (c_string cl_event) j ∧ means j (TObj [("a", TObj [("b", TStr "A")]); ("n", TArr [TNil; TBool true])]) ∧
  sem_pipe cl_b [("a", TObj [("b", TStr "A")]); ("n", TArr [TNil; TBool true])] =
    Gives ([("a", TObj [("b", TStr "A")]); ("c", TStr "a"); ("n", TArr [TNil; TBool true])], None,
      [("p.processors[0].lowercase", MIn); ("p.processors[0].lowercase", MOut)]).
Proof.
  destruct (C57_imports ex_lo ex_lo ["lowercase"]) as (r & Hr & _).
  { apply NoDup_singleton. } { intros x Hx. apply elem_of_list_singleton in Hx as ->. by left. }
  set (j := JObj [("a", JObj [("b", JStr "A")]); ("n", JArr [JNull; JBool true])]).
  assert (document (c_string cl_event) j) as Hd by (apply parse_iff; vm_compute; reflexivity).
  assert (means j (TObj [("a", TObj [("b", TStr "A")]); ("n", TArr [TNil; TBool true])])) as Hm.
  { apply means_iff; [by apply (document_valid (c_string cl_event))|]. vm_compute. reflexivity. }
  exists r, (mkConfig "p" "" [[("lowercase", Some (OptCfg "" "" [] [("field", TStr "a.b"); ("target_field", TStr "c")]))]] []), j.
  split_and!.
  - split_and!; [apply NoDup_singleton| |done]. intros x Hx. apply elem_of_list_singleton in Hx as ->. by left.
  - assert (UnmarshalConfig (c_string cl_def) = Some (mkConfig "p" "" [[("lowercase", Some (OptCfg "" "" [] [("field", TStr "a.b"); ("target_field", TStr "c")]))]] [])) as E by (vm_compute; reflexivity).
    apply C61_definition in E as (j0 & Hd0 & Hw0 & Hm0). exists j0. split_and!; try done. intros ->. apply parse_iff in Hd0. vm_compute in Hd0. done.
  - split; [done|]. split; [|constructor]. constructor; [|constructor].
    refine (de_entry ex_lo ex_lo [] cl_unpack ["lowercase"] _ "p.processors" 0 "lowercase" _ (CfLowercase "a.b" "c" false) _ false false _ _ _ _ _ _ _).
    1: by left. 1: done. 1: by constructor. 1: by split; [|intros H; inversion H]. 1: by split; [|intros H; inversion H]. constructor.
  - split_and!; [done| |right; eexists _, _; split; [reflexivity|exact Hm]]. apply within_iff; [lia|]. vm_compute. discriminate.
  - done.
  - vm_compute. reflexivity.
Qed.
(** and this is what is returned: the first call before Load, loading, processing an event,
    an empty event and no event, loading again with an error. *)
Definition cl_r : registry bcfg proc := match init_all ex_lo ex_lo ["lowercase"] NewRegistry with Ok r => r | Panic => [] end.
Definition loads (s : clib) (input : list ascii) : option (bool * Z) :=
  match c_load cl_unpack cl_r s input with Ok (s', n) => Some (match cl_pipe s' with Some _ => true | None => false end, n) | Panic => None end.
Definition cl_s1 : clib := match c_load cl_unpack cl_r cl_s cl_def with Ok (s, _) => s | Panic => cl_s end.
Definition replied (s : clib) (inputs : list (list ascii)) : option (list creply) :=
  match c_calls exact_decimal 9 s inputs with Ok (_, os) => Some os | Panic => None end.
Example C58_ex_run :
  replied cl_s [cl_event] = None ∧ loads cl_s cl_def = Some (true, 0) ∧
  replied cl_s1 [cl_event; chars "{}"; chars "[]"; cl_event ++ zb 0 :: chars "junk"] =
    Some [CText (chars "{""a"":{""b"":""A""},""c"":""a"",""n"":[null,true]}"); CMessage; CMessage;
          CText (chars "{""a"":{""b"":""A""},""c"":""a"",""n"":[null,true]}")] ∧
  loads cl_s1 (chars "{""id"":""p"",""processors"":[{""other"":null}]}") = Some (false, 1) ∧
  loads cl_s1 (chars "{""id"":1}") = Some (true, 1) ∧ loads cl_s1 (chars " null") = None ∧
  replied cl_s1 [chars "{""a"":null}"] = None ∧
  wasm_process cl_unpack cl_r exact_decimal 9 (cl_world cl_s) cl_def cl_event =
    Ok (WObject (Some [("a", TObj [("b", TStr "A")]); ("c", TStr "a"); ("n", TArr [TNil; TBool true])])).
Proof. split_and!; vm_compute; reflexivity. Qed.
