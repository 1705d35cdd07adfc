(** * Property theorems for JSON text: C53.

    [document text j] (JsonGrammar.v): the bytes are a JSON text (RFC 8259) for [j].
    [means], [shown], [within] (JsonMeaning.v): what an event value decoded from a JSON
    value is, what an event value is written as, and nesting.  [UnmarshalText h e text]:
    json.Unmarshal of any bytes into event [e]; the flag is whether an error is returned.
    [MarshalText fmt f h e]: json.Marshal; see JsonProps.v.  [ev_rep h e m fp]: event [e]
    in heap [h] shows the fields [m]. *)
From Verif Require Import JsonMeaning ProtobufProps.
Local Open Scope Z_scope.

(** ** C53 *)
(** The texts an event can be decoded from. *)
Definition readable (text : list ascii) (j : json) : Prop :=
  document text j ∧ within 10000 j ∧ (j = JNull ∨ ∃ m fs, j = JObj m ∧ means j (TObj fs)).

(** Every readable text is accepted and its fields are the event's, in memory of their
    own; null leaves an event without fields. *)
Theorem C53_reads : ∀ h e text j, readable text j →
  ∃ h' e', UnmarshalText h e text = (h', e', false) ∧
    ((j = JNull ∧ h' = h ∧ fields e' = None) ∨
     ∃ fs fp, means j (TObj fs) ∧ ev_rep h' e' fs fp ∧ fields e' ≠ None ∧ stable h h' noW ∧ ∀ l, l ∈ fp → EventRefine.fresh h l).
Proof.
  intros h e text j (Hd & Hw & Hj). pose proof (document_valid _ _ Hd) as Hv. apply parse_iff in Hd. unfold UnmarshalText. rewrite Hd.
  apply within_iff in Hw; [|lia]. change 10000 with maxNestingDepth in Hw.
  destruct Hj as [->|(m & fs & -> & Hm)].
  - exists h, (mkEvent None). split; [reflexivity|]. by left.
  - destruct (fields_of_json m) as [ts|] eqn:Ef.
    + destruct (UnmarshalEvent_rep h e m ts Hw Ef) as (h' & e' & fp & Hu & St & Hr & Hf). exists h', e'. split; [done|]. right.
      exists (mof_list ts), fp. split_and!; try done; [by apply (means_obj m ts)|].
      unfold UnmarshalEvent in Hu. destruct (Z.leb_spec (jdepth (JObj m)) maxNestingDepth); [|lia]. rewrite Ef in Hu.
      destruct (alloc_assoc h (mof_list ts)) as [h1 gm]. destruct (alloc_map_with h1 gm) as [h2 r]. by simplify_eq.
    + apply means_iff in Hm; [|done].
      assert (value_of_json (JObj m) = match fields_of_json m with Some ts => Some (TObj (mof_list ts)) | None => None end) as E by done.
      rewrite Hm, Ef in E. done.
Qed.
Print Assumptions C53_reads.
(** Everything else is refused, and then nothing has changed. *)
Theorem C53_refuses : ∀ h e text, (∀ j, ¬ readable text j) → UnmarshalText h e text = (h, e, true).
Proof.
  intros h e text H. unfold UnmarshalText. destruct (parse text) as [j|] eqn:E; [|done]. apply parse_iff in E.
  pose proof (document_valid _ _ E) as Hv. unfold UnmarshalEvent.
  destruct (Z.leb_spec (jdepth j) maxNestingDepth) as [Hl|]; [|done].
  assert (within 10000 j) as Hw. { apply within_iff; [lia|exact Hl]. }
  destruct j as [| | | | |m]; try done.
  - destruct (H JNull). split_and!; [done|done|by left].
  - destruct (fields_of_json m) as [ts|] eqn:Ef; [|done]. destruct (H (JObj m)). split_and!; [done|done|right].
    exists m, (mof_list ts). split; [done|]. by apply (means_obj m ts).
Qed.
Print Assumptions C53_refuses.
(** No text has two meanings. *)
Theorem C53_unambiguous : ∀ text j1 j2, document text j1 → document text j2 → j1 = j2.
Proof. exact document_unique. Qed.
Print Assumptions C53_unambiguous.
Theorem C53_meaning_unique : ∀ text j t1 t2, document text j → means j t1 → means j t2 → t1 = t2.
Proof.
  intros text j t1 t2 Hd H1 H2. apply document_valid in Hd. apply means_iff in H1; [|done]. apply means_iff in H2; [|done]. congruence.
Qed.
Print Assumptions C53_meaning_unique.
(** What an event is written as is a JSON text showing its fields. *)
Theorem C53_writes : ∀ fmt h e m fp, float_format fmt → ev_rep h e m fp → Forall (λ kv, in_range kv.2) m →
  ∃ n, ∀ f, (n ≤ f)%nat → ∀ text, MarshalText fmt f h e = Ok (Some text) →
    ∃ j, document text j ∧ within 10000 j ∧
      match fields e with None => j = JNull | Some _ => shown (TObj m) j end.
Proof.
  intros fmt h e m fp Hf Hev Hr. destruct (MarshalEvent_rep fmt h e m fp Hev) as (n & Hm). exists n. intros f Hfu text.
  unfold MarshalText. rewrite Hm by done. destruct (fields e) as [r|] eqn:Er.
  - destruct (assoc_json fmt m) as [js|] eqn:E1; [|done]. destruct (Z.leb_spec (jdepth (JObj js)) maxNestingDepth) as [Hl|]; [|done].
    intros Ht. assert (text = render (JObj js)) as -> by (unfold jbind, jret in Ht; congruence). clear Ht.
    assert (json_of_tree fmt (TObj m) = Some (JObj js)) as Ej.
    { cbn [json_of_tree]. unfold assoc_json in E1. by rewrite E1. }
    assert (jwf (JObj js)) as Hw. { by apply (jwf_of_tree fmt (TObj m) Hf). }
    exists (jfix (JObj js)). split_and!.
    + apply parse_iff. by apply parse_render.
    + apply within_iff; [lia|]. rewrite jdepth_jfix. exact Hl.
    + apply (shown_tree fmt); [done|by apply in_range_obj|done].
  - intros [= <-]. exists JNull. split_and!; [|by apply w_scalar|done].
    apply parse_iff. reflexivity.
Qed.
Print Assumptions C53_writes.

(** The hypotheses are met: white space, escapes, surrogates, a repeated name, a number
    halfway between two doubles. *)
Definition c53_text : list ascii :=
  chars " {""a"" : [1e2, null , true], ""s"":""\ud83d\ude00\n\u00e9"", ""a"": {""n"": 9007199254740993}} ".
Definition c53_json : json :=
  JObj [("a", JArr [JNum false 1 2; JNull; JBool true]);
        ("s", JStr (string_of_list_ascii (map zb [0xF0; 0x9F; 0x98; 0x80; 0x0A; 0xC3; 0xA9])));
        ("a", JObj [("n", JNum false 9007199254740993 0)])].
Example C53_ex : readable c53_text c53_json ∧
  means c53_json (TObj [("a", TObj [("n", TFloat 0x4340000000000000)]);
                        ("s", TStr (string_of_list_ascii (map zb [0xF0; 0x9F; 0x98; 0x80; 0x0A; 0xC3; 0xA9])))]).
Proof.
  assert (document c53_text c53_json) as Hd by (apply parse_iff; vm_compute; reflexivity).
  assert (means c53_json (TObj [("a", TObj [("n", TFloat 0x4340000000000000)]);
                        ("s", TStr (string_of_list_ascii (map zb [0xF0; 0x9F; 0x98; 0x80; 0x0A; 0xC3; 0xA9])))])) as Hm.
  { apply means_iff; [by apply (document_valid c53_text)|]. vm_compute. reflexivity. }
  split; [|done]. split_and!; [done| |right; eexists _, _; split; [reflexivity|exact Hm]].
  apply within_iff; [lia|]. vm_compute. discriminate.
Qed.
(** A vertical tab is not white space, 01 not a number, 1e309 too big, an array no event. *)
Example C53_ex_refused : ∀ text, text ∈ [zb 11 :: chars "{}"; chars "{""a"":01}"; chars "{""a"":1e309}"; chars "[]"; chars "{} x"; chars "{""a"":1,}"] →
  ∀ j, ¬ readable text j.
Proof.
  intros text Ht j (Hd & _ & Hj). pose proof (document_valid _ _ Hd) as Hv. apply parse_iff in Hd. rewrite !elem_of_cons in Ht.
  destruct Ht as [->|[->|[->|[->|[->|[->|Ht]]]]]]; [discriminate Hd|discriminate Hd| | |discriminate Hd|discriminate Hd|by apply elem_of_nil in Ht].
  - assert (parse (chars "{""a"":1e309}") = Some (JObj [("a", JNum false 1 309)])) as E by (vm_compute; reflexivity).
    rewrite E in Hd. injection Hd as <-. destruct Hj as [?|(m & fs & _ & Hm)]; [done|]. apply means_iff in Hm; [|done].
    vm_compute in Hm. discriminate.
  - assert (parse (chars "[]") = Some (JArr [])) as E by (vm_compute; reflexivity).
    rewrite E in Hd. injection Hd as <-. destruct Hj as [?|(m & fs & ? & Hm)]; done.
Qed.
Example C53_ex_writes : float_format exact_decimal ∧
  Forall (λ kv : string * tree, in_range kv.2) [("a", TInt (-7)); ("t", TTime 1709164800000000000)] ∧
  shown (TObj [("a", TInt (-7)); ("t", TTime 1709164800000000000)]) (JObj [("a", JNum true 7 0); ("t", JStr "2024-02-29T00:00:00Z")]).
Proof.
  split; [apply exact_decimal_format|].
  assert (Forall (λ kv : string * tree, in_range kv.2) [("a", TInt (-7)); ("t", TTime 1709164800000000000)]) as Hr.
  { repeat constructor; cbn; lia. }
  split; [done|]. apply in_range_obj in Hr. apply (shown_tree exact_decimal _ exact_decimal_format Hr (JObj [("a", JNum true 7 0); ("t", JStr "2024-02-29T00:00:00Z")])).
  vm_compute. reflexivity.
Qed.
