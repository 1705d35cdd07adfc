(** * Property theorems for JSON: C42, C43.

    [MarshalText fmt f h e]: json.Marshal of event [e] in heap [h]; [fmt] is strconv's
    way of writing doubles, of which only [float_format fmt] is assumed: what it writes
    reads back as the same double.  [f] bounds the nesting depth the recursion may
    reach, any large enough [f] gives the same result; [Ok None] is a returned error.
    [UnmarshalText h e text]: json.Unmarshal of any bytes into [e]; the flag is whether
    an error is returned.  [ev_rep h e m fp]: event [e] in heap [h] shows the fields [m]. *)
From Verif Require Import JsonEvent ProtobufEnd ProtobufProps.
Local Open Scope Z_scope.

(** ** C42 *)
Lemma parse_object js : Forall (λ kv, jwf kv.2) js →
  parse (render (JObj js)) = Some (JObj (map (λ kv : string * json, let '(k, j) := kv in (fix_utf8 k, jfix j)) js)).
Proof. intros H. by rewrite parse_render by (by apply jwf_obj). Qed.

(** What comes back, for every event without NaN and infinities nested at most 10000
    deep: each value as [json_returned] says. *)
Theorem C42_exact : ∀ fmt h e m fp, float_format fmt → ev_rep h e m fp →
  Forall (λ kv, jsonable kv.2) m → tdepth (TObj m) ≤ 10000 →
  ∃ n text, (∀ f, (n ≤ f)%nat → MarshalText fmt f h e = Ok (Some text)) ∧ Forall printable text ∧
    ∀ h0 e0, ∃ h' e' fp', UnmarshalText h0 e0 text = (h', e', false) ∧ ev_rep h' e' (fields_returned m) fp' ∧
      ∀ l, l ∈ fp' → EventRefine.fresh h0 l.
Proof.
  intros fmt h e m fp Hf Hev Hj Hd. destruct (MarshalEvent_rep fmt h e m fp Hev) as (n & Hm). exists n.
  destruct (fields e) as [r|] eqn:Er.
  - destruct (fields_round fmt m (float_format_ok _ Hf) Hj) as (js & ts & E1 & Ed & E2 & E3).
    assert (Forall (λ kv, jwf kv.2) js) as Hw.
    { apply jwf_obj. apply (jwf_of_tree fmt (TObj m) Hf). cbn [json_of_tree]. unfold assoc_json in E1. by rewrite E1. }
    exists (render (JObj js)). rewrite E1, Ed in Hm. destruct (Z.leb_spec (tdepth (TObj m)) maxNestingDepth) as [Hl|Hl]; [|unfold maxNestingDepth in Hl; lia].
    split_and!.
    + intros f Hfu. unfold MarshalText. rewrite Hm by done. done.
    + apply render_printable. by apply jwf_obj.
    + intros h0 e0. unfold UnmarshalText. rewrite parse_object by done.
      edestruct (UnmarshalEvent_rep h0 e0) as (h' & e' & fp' & Hu & _ & Hr & Hfr); [|exact E2|].
      { pose proof (jdepth_jfix (JObj js)) as Hx. cbn [jfix] in Hx. rewrite Hx, Ed. exact Hl. }
      exists h', e', fp'. rewrite <- E3. done.
  - assert (m = []) as -> by (unfold ev_rep in Hev; rewrite Er in Hev; by destruct Hev).
    exists (render JNull). split_and!.
    + intros f Hfu. unfold MarshalText. rewrite Hm by done. done.
    + apply render_printable. done.
    + intros h0 e0. exists h0, (mkEvent None), []. split; [vm_compute; reflexivity|]. split; [done|].
      intros l Hl. by apply elem_of_nil in Hl.
Qed.
Print Assumptions C42_exact.

(** An event with fields is refused exactly if a NaN or infinity is somewhere inside or
    it nests more than 10000 deep. *)
Theorem C42_refused : ∀ fmt h e m fp, ev_rep h e m fp → fields e ≠ None →
  ∃ n r, (∀ f, (n ≤ f)%nat → MarshalText fmt f h e = Ok r) ∧
    (r = None ↔ has_nonfinite (TObj m) ∨ 10000 < tdepth (TObj m)).
Proof.
  intros fmt h e m fp Hev Hne. destruct (MarshalEvent_rep fmt h e m fp Hev) as (n & Hm). exists n.
  destruct (fields e) as [r|] eqn:Er; [|done]. pose proof (assoc_json_none fmt m) as Hn.
  destruct (assoc_json fmt m) as [js|] eqn:E1.
  - assert (jdepth (JObj js) = tdepth (TObj m)) as Ed.
    { apply (json_of_tree_depth fmt). cbn [json_of_tree]. unfold assoc_json in E1. by rewrite E1. }
    rewrite Ed in Hm. unfold maxNestingDepth in Hm. destruct (Z.leb_spec (tdepth (TObj m)) 10000) as [Hl|Hl].
    + exists (Some (render (JObj js))). split; [intros f Hfu; unfold MarshalText; rewrite Hm by done; done|].
      split; [done|]. intros [H|H]; [by apply Hn in H|lia].
    + exists None. split; [intros f Hfu; unfold MarshalText; rewrite Hm by done; done|]. split; [by right|done].
  - exists None. split; [intros f Hfu; unfold MarshalText; rewrite Hm by done; done|]. split; [|done]. left. by apply Hn.
Qed.
Print Assumptions C42_refused.

(** Full statement wanted: for every event.  Proved: the same fields come back for the
    events made of strings and names in valid UTF-8, booleans, finite floats, nils,
    arrays and objects, nested at most 10000 deep. *)
Lemma stable_fields m : msorted m → Forall (λ kv, tsorted kv.2) m → Forall (λ kv, valid_utf8 kv.1 ∧ json_stable kv.2) m →
  fields_returned m = m.
Proof.
  intros Hm Hs Hj. assert (json_returned (TObj m) = TObj m) as H.
  { apply json_stable_returned; [by apply json_stable_obj|by apply tsorted_obj]. }
  cbn [json_returned] in H. injection H as H. exact H.
Qed.
Theorem C42_round_trip_partial : ∀ fmt h e m fp, float_format fmt → ev_rep h e m fp →
  Forall (λ kv, valid_utf8 kv.1 ∧ json_stable kv.2) m → tdepth (TObj m) ≤ 10000 →
  ∃ n text, (∀ f, (n ≤ f)%nat → MarshalText fmt f h e = Ok (Some text)) ∧
    ∀ h0 e0, ∃ h' e' fp', UnmarshalText h0 e0 text = (h', e', false) ∧ ev_rep h' e' m fp'.
Proof.
  intros fmt h e m fp Hf Hev Hj Hd. destruct (ev_rep_sorted _ _ _ _ Hev) as [Hm Hs].
  destruct (C42_exact fmt h e m fp Hf Hev) as (n & text & H1 & _ & H2); [|done|].
  { eapply Forall_impl; [exact Hj|]. intros [k t] [_ H]. by apply json_stable_jsonable. }
  exists n, text. split; [done|]. intros h0 e0. destruct (H2 h0 e0) as (h' & e' & fp' & Hu & Hr & _).
  rewrite stable_fields in Hr by done. eauto.
Qed.
Print Assumptions C42_round_trip_partial.

(** Whatever bytes an event was decoded from, encoding and decoding it gives the same
    fields. *)
Lemma parse_valid text j : parse text = Some j → jvalid j.
Proof.
  unfold parse. destruct (pvalue _ text) as [[j' r]|] eqn:E; [|done]. destruct (skip_ws r); [|done].
  intros [= <-]. by apply (proj1 (parse_facts _)) in E as [_ ?].
Qed.
Theorem C42_decoded_round_trips : ∀ fmt h0 e0 bytes h e, float_format fmt → UnmarshalText h0 e0 bytes = (h, e, false) →
  ∃ m fp, ev_rep h e m fp ∧
  ∃ n text, (∀ f, (n ≤ f)%nat → MarshalText fmt f h e = Ok (Some text)) ∧
    ∀ h1 e1, ∃ h' e' fp', UnmarshalText h1 e1 text = (h', e', false) ∧ ev_rep h' e' m fp'.
Proof.
  intros fmt h0 e0 bytes h e Hf H. unfold UnmarshalText in H. destruct (parse bytes) as [j|] eqn:Ep; [|done].
  apply parse_valid in Ep. unfold UnmarshalEvent in H.
  destruct (Z.leb_spec (jdepth j) maxNestingDepth) as [Hl|]; [|done].
  destruct j as [| | | | |m]; try done.
  - injection H as <- <-. exists [], []. assert (ev_rep h0 (mkEvent None) [] []) as Hev by done. split; [done|].
    apply (C42_round_trip_partial fmt h0 _ [] [] Hf Hev); [constructor|]. cbn. lia.
  - destruct (fields_of_json m) as [ts|] eqn:Ef; [|done].
    destruct (decoded_stable (JObj m) Ep (TObj (mof_list ts))) as [Hst Hd].
    { cbn [value_of_json]. unfold fields_of_json in Ef. by rewrite Ef. }
    destruct (UnmarshalEvent_rep h0 e0 m ts Hl Ef) as (h' & e' & fp & Hu & _ & Hr & _).
    unfold UnmarshalEvent in Hu. destruct (Z.leb_spec (jdepth (JObj m)) maxNestingDepth); [|lia]. rewrite Ef in Hu.
    destruct (alloc_assoc h0 (mof_list ts)) as [h1 gm]. destruct (alloc_map_with h1 gm) as [h2 r]. simplify_eq.
    exists (mof_list ts), fp. split; [done|]. apply (C42_round_trip_partial fmt _ _ _ _ Hf Hr).
    + by apply json_stable_obj.
    + unfold maxNestingDepth in Hl. lia.
Qed.
Print Assumptions C42_decoded_round_trips.

(** The model's parser recurses on fuel taken from the length of the text: more fuel
    never changes its answer, so it never cuts a text short. *)
Theorem C42_parser_total : ∀ text k, (S (2 * length text) ≤ k)%nat →
  parse text = match pvalue k text with
               | Some (j, r) => match skip_ws r with [] => Some j | _ => None end
               | None => None
               end.
Proof.
  intros text k Hk. unfold parse.
  destruct (parse_fuel (S (2 * length text))) as [H _]. rewrite (H text ltac:(lia) k Hk). done.
Qed.
Print Assumptions C42_parser_total.

(** The hypotheses are met: there is a [fmt], and a non-trivial event built by Put. *)
Definition js_ops : list eop :=
  [OPut "a.b" (TArr [TNil; TFloat 0x4330000000000000]); OPut "x\.y" (TObj [("k", TStr "v")]); OPut "f" (TBool true)].
Definition js_fields : gomap tree :=
  [("a", TObj [("b", TArr [TNil; TFloat 0x4330000000000000])]); ("f", TBool true); ("x.y", TObj [("k", TStr "v")])].
Lemma ascii_string_valid s : forallb (λ c, bz c <? 0x80) (list_ascii_of_string s) = true → valid_utf8 s.
Proof.
  intros H. apply ascii_valid, Forall_forall. intros c Hc. rewrite forallb_forall in H.
  apply Z.ltb_lt, H. by apply elem_of_list_In.
Qed.
Example C42_ex : float_format exact_decimal ∧
  (∃ h e outs fp, run emptyHeap newEvent js_ops = Ok (h, e, outs) ∧ ev_rep h e js_fields fp ∧
     ∃ f, MarshalText exact_decimal f h e =
       Ok (Some (list_ascii_of_string "{""a"":{""b"":[null,4503599627370496]},""f"":true,""x.y"":{""k"":""v""}}"))) ∧
  Forall (λ kv, valid_utf8 kv.1 ∧ json_stable kv.2) js_fields ∧ tdepth (TObj js_fields) ≤ 10000.
Proof.
  split_and!.
  - apply exact_decimal_format.
  - destruct (built js_ops js_fields [mkSRes None None; mkSRes None None; mkSRes None None]) as (h & e & outs & fp & Hr & Hev);
      [sorted_ops|vm_compute; reflexivity|]. exists h, e, outs, fp. split; [done|]. split; [done|].
    exists 10%nat. vm_compute in Hr. injection Hr as <- <- _. vm_compute. reflexivity.
  - repeat (apply List.Forall_cons; [|try apply List.Forall_nil]); cbn -[Z.pow valid_utf8 finite64]; split_and!; try done;
      try (apply ascii_string_valid; vm_compute; reflexivity); vm_compute; reflexivity.
  - cbn. lia.
Qed.

(** Not every event comes back.  [encodes_to m back]: an event built by Put shows [m],
    and its decoded encoding shows [back]. *)
Definition encodes_to (m back : gomap tree) : Prop :=
  ∃ ops h e outs fp, run emptyHeap newEvent ops = Ok (h, e, outs) ∧ ev_rep h e m fp ∧
    ∀ fmt, float_format fmt →
      ∃ n text, (∀ f, (n ≤ f)%nat → MarshalText fmt f h e = Ok (Some text)) ∧
      ∃ h' e' fp', UnmarshalText h e text = (h', e', false) ∧ ev_rep h' e' back fp'.
Lemma encodes_ops ops m rs : Forall eop_sorted ops → srun [] ops = Ok (m, rs) →
  Forall (λ kv, jsonable kv.2) m → tdepth (TObj m) ≤ 10000 → encodes_to m (fields_returned m).
Proof.
  intros Hs Hr Hj Hd. destruct (built ops m rs Hs Hr) as (h & e & outs & fp & Hx & Hev).
  exists ops, h, e, outs, fp. split; [done|]. split; [done|]. intros fmt Hf.
  destruct (C42_exact fmt h e m fp Hf Hev Hj Hd) as (n & text & H1 & _ & H2). exists n, text. split; [done|].
  destruct (H2 h e) as (h' & e' & fp' & ? & ? & _). eauto 6.
Qed.
Ltac refuted ops := 
  match goal with |- encodes_to ?m ?b => replace b with (fields_returned m) by (vm_compute; reflexivity) end;
  eapply (encodes_ops ops); [sorted_ops|vm_compute; reflexivity|repeat constructor; vm_compute; first [done|split; congruence]|vm_compute; congruence].
(** An integer comes back as a float, a timestamp as a string, null and a nil slice as
    nil, and invalid UTF-8 as U+FFFD. *)
Theorem C42_integer_refuted : encodes_to [("a", TInt 1)] [("a", TFloat 0x3FF0000000000000)].
Proof. refuted [OPut "a" (TInt 1)]. Qed.
Print Assumptions C42_integer_refuted.
Theorem C42_timestamp_refuted : encodes_to [("a", TTime 1)] [("a", TStr "1970-01-01T00:00:00.000000001Z")].
Proof. refuted [OPut "a" (TTime 1)]. Qed.
Print Assumptions C42_timestamp_refuted.
Theorem C42_null_refuted : encodes_to [("a", TNull)] [("a", TNil)].
Proof. refuted [OPut "a" TNull]. Qed.
Print Assumptions C42_null_refuted.
Theorem C42_nil_slice_refuted : encodes_to [("a", TNilArr)] [("a", TNil)].
Proof. refuted [OPut "a" TNilArr]. Qed.
Print Assumptions C42_nil_slice_refuted.
Theorem C42_utf8_refuted :
  encodes_to [("a", TStr (String "255" ""))] [("a", TStr (String "239" (String "191" (String "189" ""))))].
Proof. refuted [OPut "a" (TStr (String "255" ""))]. Qed.
Print Assumptions C42_utf8_refuted.
(** Two names that differ only in invalid bytes collapse into one field. *)
Theorem C42_names_collapse_refuted :
  encodes_to [(String "254" "", TBool true); (String "255" "", TBool false)]
             [(String "239" (String "191" (String "189" "")), TBool false)].
Proof. refuted [OPut (String "254" "") (TBool true); OPut (String "255" "") (TBool false)]. Qed.
Print Assumptions C42_names_collapse_refuted.
(** Different integers beyond 2^53 come back as the same float. *)
Theorem C42_large_integers_refuted :
  ∃ back, encodes_to [("a", TInt (2 ^ 53))] back ∧ encodes_to [("a", TInt (2 ^ 53 + 1))] back.
Proof.
  exists [("a", TFloat 0x4340000000000000)]. split.
  - refuted [OPut "a" (TInt (2 ^ 53))].
  - refuted [OPut "a" (TInt (2 ^ 53 + 1))].
Qed.
Print Assumptions C42_large_integers_refuted.
(** One NaN makes the whole event impossible to encode. *)
Theorem C42_nan_refuted : ∃ ops h e outs, run emptyHeap newEvent ops = Ok (h, e, outs) ∧
  ∀ fmt, ∃ n, ∀ f, (n ≤ f)%nat → MarshalText fmt f h e = Ok None.
Proof.
  destruct (built [OPut "a" (TFloat 0x7FF8000000000001)] [("a", TFloat 0x7FF8000000000001)] [mkSRes None None])
    as (h & e & outs & fp & Hr & Hev); [sorted_ops|vm_compute; reflexivity|].
  exists [OPut "a" (TFloat 0x7FF8000000000001)], h, e, outs. split; [done|]. intros fmt.
  destruct (C42_refused fmt h e _ fp Hev) as (n & r & H & Hn).
  { vm_compute in Hr. injection Hr as _ <- _. done. }
  exists n. intros f Hf. rewrite H by done. f_equal. apply Hn. left. left. vm_compute. reflexivity.
Qed.
Print Assumptions C42_nan_refuted.

(** ** C43 *)
(** The text of a timestamp is the RFC 3339 text of its moment. *)
Theorem C43_text_correct : ∀ t, - 2 ^ 63 ≤ t < 2 ^ 63 →
  ∃ m, moment_ok m ∧ unix_nanos m = t ∧ rfc3339 m (time_text t).
Proof. intros t Ht. exists (moment_of t). destruct (moment_of_ok t). split_and!; [done|done|by apply time_text_reads]. Qed.
Print Assumptions C43_text_correct.
(** Any text reads as at most one moment, so at most one nanosecond count. *)
Theorem C43_text_unambiguous : ∀ m m' s, rfc3339 m s → rfc3339 m' s → m = m'.
Proof. exact rfc3339_inj. Qed.
Print Assumptions C43_text_unambiguous.
Theorem C43_injective : ∀ t t', - 2 ^ 63 ≤ t < 2 ^ 63 → - 2 ^ 63 ≤ t' < 2 ^ 63 → time_text t = time_text t' → t = t'.
Proof.
  intros t t' Ht Ht' H. destruct (C43_text_correct t Ht) as (m & _ & <- & R). destruct (C43_text_correct t' Ht') as (m' & _ & <- & R').
  rewrite H in R. by rewrite (rfc3339_inj _ _ _ R R').
Qed.
Print Assumptions C43_injective.
(** Concrete texts, with a leap day and both ends of the range. *)
Example C43_ex : time_text 1709164800000000000 = "2024-02-29T00:00:00Z" ∧ time_text (-1) = "1969-12-31T23:59:59.999999999Z" ∧
  time_text (2 ^ 63 - 1) = "2262-04-11T23:47:16.854775807Z" ∧ time_text (- 2 ^ 63) = "1677-09-21T00:12:43.145224192Z".
Proof. split_and!; vm_compute; reflexivity. Qed.
