(** * Events sent elsewhere (C71).

    An event is converted to a protobuf message, encoded, decoded and converted back, or
    converted to a map[string]interface{} and back, perhaps in another process with another
    memory.  Compositions of C34, C40, C42 and C55.

    [ev_rep h e m fp]: event [e] in memory [h] shows the fields [m].  [pipe_as h b pl]: the
    pipeline [pl] is built as described by [b] ([sem_pipe b] is its specification).
    [showing w i m fp]: event [i] of world [w] shows the fields [m]. *)
From Verif Require Import JsonEvent PipeSem ShareFacts PipelineRun ShareProps MapIface ProtobufEnd WireProps EventProps MapIfaceProps ProtobufProps JsonProps PipeSemProps.
Local Open Scope Z_scope.

(** ** What is done with an event depends on the fields it shows only *)
(** Its JSON text, or that it has none. *)
Theorem C71_json_of_fields : ∀ fmt h e h' e' m fp fp', ev_rep h e m fp → ev_rep h' e' m fp' →
  fields e ≠ None → fields e' ≠ None →
  ∃ n text, ∀ f, (n ≤ f)%nat → MarshalText fmt f h e = Ok text ∧ MarshalText fmt f h' e' = Ok text.
Proof.
  intros fmt h e h' e' m fp fp' H1 H2 N1 N2. destruct (MarshalEvent_rep fmt h e m fp H1) as (n1 & E1). destruct (MarshalEvent_rep fmt h' e' m fp' H2) as (n2 & E2).
  unfold MarshalText. destruct (fields e) as [r|]; [|done]. destruct (fields e') as [r'|]; [|done].
  set (r0 := match assoc_json fmt m with Some js => if jdepth (JObj js) <=? maxNestingDepth then Some (JObj js) else None | None => None end) in *.
  exists (Nat.max n1 n2), (match r0 with Some j => Some (render j) | None => None end). intros f Hf. rewrite E1, E2 by lia. clearbody r0. split; by destruct r0.
Qed.
Print Assumptions C71_json_of_fields.
(** What a pipeline makes of it: the same crash, or the same error, the same fields left and
    the same counters counted.  Copied fields share arrays and objects, in a way that may even
    run in circles: [drawn w i G fp] of ShareSem.v says that event [i] is the graph [G], from
    which its fields can be read (C55_fields, C55_get). *)
Definition same_processing (pl1 : pipeline) (w1 : world) (i1 : nat) (pl2 : pipeline) (w2 : world) (i2 : nat) : Prop :=
  (Process pl1 w1 (Some i1) = Panic ∧ Process pl2 w2 (Some i2) = Panic) ∨
  ∃ w1' w2' err G fp1 fp2 counted,
    Process pl1 w1 (Some i1) = Ok (w1', match err with None => Some i1 | Some _ => None end, err) ∧
    Process pl2 w2 (Some i2) = Ok (w2', match err with None => Some i2 | Some _ => None end, err) ∧
    drawn w1' i1 G fp1 ∧ drawn w2' i2 G fp2 ∧ w_log w1' = w_log w1 ++ counted ∧ w_log w2' = w_log w2 ++ counted.
Theorem C71_processing_of_fields : ∀ b pl1 w1 i1 pl2 w2 i2 m fp1 fp2,
  pipe_as (w_heap w1) b pl1 → pipe_as (w_heap w2) b pl2 → showing w1 i1 m fp1 → showing w2 i2 m fp2 →
  same_processing pl1 w1 i1 pl2 w2 i2.
Proof.
  intros b pl1 w1 i1 pl2 w2 i2 m fp1 fp2 P1 P2 S1 S2.
  pose proof (C55_pipeline_semantics b pl1 w1 i1 _ fp1 P1 (C55_start _ _ _ _ S1)) as H1. pose proof (C55_pipeline_semantics b pl2 w2 i2 _ fp2 P2 (C55_start _ _ _ _ S2)) as H2.
  destruct (gsem_pipe b (planted m)) as [[[G' err] lg]| |]; [|by left|done]. right.
  destruct H1 as (w1' & fp1' & R1 & Sh1 & L1 & _). destruct H2 as (w2' & fp2' & R2 & Sh2 & L2 & _). exists w1', w2', err, G', fp1', fp2', lg. done.
Qed.
Print Assumptions C71_processing_of_fields.

(** ** Through protobuf *)
(** [e'] in memory [h'] cannot be told from [e] in [h]. *)
Definition like_original (h : heap) (e : event) (h' : heap) (e' : event) : Prop :=
  (∀ fmt, ∃ n text, ∀ f, (n ≤ f)%nat → MarshalText fmt f h e = Ok text ∧ MarshalText fmt f h' e' = Ok text) ∧
  ∀ b pl1 w1 i1 pl2 w2 i2, w_heap w1 = h → w_heap w2 = h' → w_events w1 !! i1 = Some e → w_events w2 !! i2 = Some e' →
    pipe_as h b pl1 → pipe_as h' b pl2 →
    same_processing pl1 w1 i1 pl2 w2 i2.
Lemma same_fields h e h' e' m fp fp' : m ≠ [] → ev_rep h e m fp → ev_rep h' e' m fp' → like_original h e h' e'.
Proof.
  intros Hne H1 H2. split.
  - intros fmt. eapply C71_json_of_fields; [exact H1|exact H2| |].
    + intros E. unfold ev_rep in H1. rewrite E in H1. by destruct H1.
    + intros E. unfold ev_rep in H2. rewrite E in H2. by destruct H2.
  - intros b pl1 w1 i1 pl2 w2 i2 <- <- E1 E2 P1 P2. eapply C71_processing_of_fields; [exact P1|exact P2| |].
    + exists e. split; [exact E1|exact H1].
    + exists e'. split; [exact E2|exact H2].
Qed.
(** For the events named in C71: with a field,
    names not empty and without backslash, below also without dot, no nil value, slice or
    map.  [msg1], [msg3]: maps visited in any order; [d]: the bytes sent. *)
Theorem C71_protobuf : ∀ h e m fp, ev_rep h e m fp → m ≠ [] →
  Forall (λ kv, kv.1 ≠ "" ∧ has_backslash kv.1 = false ∧ ProtobufFacts.plain kv.2 ∧ in_range kv.2) m →
  ∃ n msg, (∀ f, (n ≤ f)%nat → FromEvent f h e = Ok msg) ∧
    ∀ msg1, wsame msg msg1 → keys_ok_wrapper msg1 → size_wrapper msg1 < 2 ^ 63 →
      ∃ d msg2, Marshal msg1 = Ok d ∧ Unmarshal d = ROk msg2 ∧
        ∀ h0 msg3, wsame msg2 msg3 → keys_ok_wrapper msg3 →
          ∃ h' e', ToLogEvent h0 (GetLog msg3) = Ok (h', Some e') ∧ like_original h e h' e'.
Proof.
  intros h e m fp Hev Hne Hp. destruct (C34_bytes_round_trip_partial h e m fp Hev Hne Hp) as (n & msg & Hf & H). exists n, msg. split; [exact Hf|].
  intros msg1 W1 K1 Hsz. destruct (H msg1 W1 K1 Hsz) as (d & msg2 & Hm & Hu & H2). exists d, msg2. split; [exact Hm|]. split; [exact Hu|].
  intros h0 msg3 W3 K3. destruct (H2 h0 msg3 W3 K3) as (h' & e' & fp' & Ht & Hr). exists h', e'. split; [exact Ht|]. by eapply same_fields.
Qed.
Print Assumptions C71_protobuf.
(** In general it is false: a dot in a name below the top level comes back escaped, so the
    JSON text is another one. *)
Theorem C71_protobuf_refuted : ∃ ops h e outs msg h' e',
  run emptyHeap newEvent ops = Ok (h, e, outs) ∧
  (∃ n, ∀ f, (n ≤ f)%nat → FromEvent f h e = Ok msg) ∧
  ToLogEvent h (GetLog msg) = Ok (h', Some e') ∧
  ∀ fmt, ∃ n, ∀ f, (n ≤ f)%nat →
    MarshalText fmt f h e = Ok (Some (list_ascii_of_string "{""a"":{""b.c"":1}}")) ∧
    MarshalText fmt f h' e' = Ok (Some (list_ascii_of_string "{""a"":{""b\\.c"":1}}")).
Proof.
  destruct C34_nested_dot_refuted as (ops & h & e & outs & fp & n & Hr & Hev & msg & Hf & h' & e' & fp' & Ht & Hev').
  exists ops, h, e, outs, msg, h', e'. split; [exact Hr|]. split; [exists n; exact Hf|]. split; [exact Ht|]. intros fmt.
  destruct (MarshalEvent_rep fmt h e _ _ Hev) as (n1 & E1). destruct (MarshalEvent_rep fmt h' e' _ _ Hev') as (n2 & E2).
  exists (Nat.max n1 n2). intros f Hle. unfold MarshalText. rewrite E1, E2 by lia.
  unfold ev_rep in Hev, Hev'. destruct (fields e) as [r|]; [|by destruct Hev]. destruct (fields e') as [r'|]; [|by destruct Hev'].
  split; vm_compute; reflexivity.
Qed.
Print Assumptions C71_protobuf_refuted.

(** JSON text with a null is read and sent on, and crashes the receiver; a null in an array
    crashes the sender. *)
Theorem C71_json_null_crashes_refuted :
  (∃ h e msg d msg2, UnmarshalText emptyHeap newEvent (list_ascii_of_string "{""a"":null}") = (h, e, false) ∧
    (∀ f, (2 ≤ f)%nat → FromEvent f h e = Ok msg) ∧ Marshal msg = Ok d ∧ Unmarshal d = ROk msg2 ∧
    ∀ h0, ToLogEvent h0 (GetLog msg2) = Panic) ∧
  (∃ h e msg, UnmarshalText emptyHeap newEvent (list_ascii_of_string "{""a"":[null]}") = (h, e, false) ∧
    (∀ f, (3 ≤ f)%nat → FromEvent f h e = Ok msg) ∧ Marshal msg = Panic).
Proof.
  split.
  - eexists _, _, _, _, _. split; [vm_compute; reflexivity|]. split; [|split; [|split]].
    + intros f Hf. destruct f as [|[|f]]; [lia|lia|]. vm_compute. reflexivity.
    + vm_compute. reflexivity.
    + vm_compute. reflexivity.
    + intros h. apply C39_panics_iff. eexists _, _, "a", None. simpl. split_and!; [reflexivity|reflexivity|left|constructor].
  - eexists _, _, _. split; [vm_compute; reflexivity|]. split.
    + intros f Hf. destruct f as [|[|[|f]]]; [lia|lia|lia|]. vm_compute. reflexivity.
    + vm_compute. reflexivity.
Qed.
Print Assumptions C71_json_null_crashes_refuted.

(** ** Through a map[string]interface{} *)
(** [order]: the order in which the map is visited on the way back. *)
Theorem C71_map : ∀ lower h e m fp, ev_rep h e m fp → m ≠ [] →
  Forall (λ kv, kv.1 ≠ "" ∧ has_backslash kv.1 = false ∧ ProtobufFacts.plain kv.2) m →
  ∃ n gm, (∀ f, (n ≤ f)%nat → mi_FromEvent f h e = Ok gm) ∧
    ∀ order h0 gm', (∀ l, Permutation (order l) l) → reordered (GMap d_map gm) (GMap d_map gm') →
      ∃ h' e', mi_ToEvent lower order h0 gm' = RVal (h', e') ∧ like_original h e h' e'.
Proof.
  intros lower h e m fp Hev Hne Hp. destruct (C40_round_trip_partial lower h e m fp Hev Hp) as (n & gm & Hf & H). exists n, gm. split; [exact Hf|].
  intros order h0 gm' Ho Hre. destruct (H order h0 gm' Ho Hre) as (h' & e' & fp' & Ht & Hr). exists h', e'. split; [exact Ht|].
  exact (same_fields h e h' e' m fp fp' Hne Hev Hr).
Qed.
Print Assumptions C71_map.

(** An event with fields of every kind is covered. *)
Example C71_ex : (∃ h e outs fp, run emptyHeap newEvent pb_ops = Ok (h, e, outs) ∧ ev_rep h e pb_fields fp) ∧ pb_fields ≠ [] ∧
  Forall (λ kv, kv.1 ≠ "" ∧ has_backslash kv.1 = false ∧ ProtobufFacts.plain kv.2 ∧ in_range kv.2) pb_fields.
Proof. destruct C34_ex as (H1 & H2 & H3). split; [exact H1|]. split; [done|exact H3]. Qed.

(** ** Through JSON text *)
Lemma text_of_object fmt h e m fp n text : float_format fmt → ev_rep h e m fp → fields e ≠ None →
  (∀ f, (n ≤ f)%nat → MarshalText fmt f h e = Ok (Some text)) → ∃ js, parse text = Some (JObj js).
Proof.
  intros Hf Hev Hne H. destruct (MarshalEvent_rep fmt h e m fp Hev) as (n' & Hm). specialize (H (Nat.max n n') ltac:(lia)).
  unfold MarshalText in H. rewrite Hm in H by lia. destruct (fields e) as [r|]; [|done].
  destruct (assoc_json fmt m) as [js|] eqn:E1; [|done]. destruct (Z.leb_spec (jdepth (JObj js)) maxNestingDepth); [|done].
  apply (f_equal (λ o, match o with Ok (Some t) => t | _ => [] end)) in H. cbn [jbind jret] in H. unfold jret, jbind in H. subst text. eexists. apply parse_object. apply jwf_obj. apply (jwf_of_tree fmt (TObj m) Hf). cbn [json_of_tree]. unfold assoc_json in E1. by rewrite E1.
Qed.
Lemma unmarshal_fields h0 e0 text h e : UnmarshalText h0 e0 text = (h, e, false) →
  (parse text = Some JNull ∧ fields e = None) ∨ ((∃ js, parse text = Some (JObj js)) ∧ fields e ≠ None).
Proof.
  unfold UnmarshalText, UnmarshalEvent. destruct (parse text) as [j|]; [|done]. destruct (jdepth j <=? maxNestingDepth); [|done].
  destruct j as [| | | | |m]; try done; [intros [= <- <-]; by left|]. destruct (fields_of_json m) as [ts|]; [|done].
  destruct (alloc_assoc h0 (mof_list ts)) as [h1 gm]. destruct (alloc_map_with h1 gm) as [h2 r]. intros [= <- <-]. right. split; [by exists m|done].
Qed.
(** Writing a decoded event gives a text that stays: decoding and writing it again, anywhere,
    gives the same bytes. *)
Theorem C42_written_text_stays : ∀ fmt h0 e0 bytes h e, float_format fmt → UnmarshalText h0 e0 bytes = (h, e, false) →
  ∃ n text, (∀ f, (n ≤ f)%nat → MarshalText fmt f h e = Ok (Some text)) ∧
    ∀ h1 e1, ∃ n' h' e', UnmarshalText h1 e1 text = (h', e', false) ∧ ∀ f, (n' ≤ f)%nat → MarshalText fmt f h' e' = Ok (Some text).
Proof.
  intros fmt h0 e0 bytes h e Hf H. destruct (C42_decoded_round_trips fmt h0 e0 bytes h e Hf H) as (m & fp & Hev & n & text & Ht & Hu).
  exists n, text. split; [done|]. intros h1 e1. destruct (Hu h1 e1) as (h' & e' & fp' & Hd & Hev').
  destruct (fields e) as [r|] eqn:Er.
  - destruct (text_of_object fmt h e m fp n text Hf Hev) as [js Ej]; [congruence|done|].
    destruct (unmarshal_fields _ _ _ _ _ Hd) as [[E _]|[_ Hne]]; [congruence|].
    destruct (C71_json_of_fields fmt h e h' e' m fp fp' Hev Hev') as (n2 & t2 & H2); [congruence|done|].
    exists (Nat.max n n2), h', e'. split; [done|]. intros f Hfu. destruct (H2 f) as [E1 E2]; [lia|]. rewrite Ht in E1 by lia. congruence.
  - destruct (MarshalEvent_rep fmt h e m fp Hev) as (n2 & Hm). rewrite Er in Hm. pose proof (Ht (Nat.max n n2) ltac:(lia)) as E.
    unfold MarshalText in E. rewrite Hm in E by lia. injection E as <-.
    assert (fields e' = None) as Er'. { destruct (unmarshal_fields _ _ _ _ _ Hd) as [[_ E]|[[js E] _]]; [done|]. vm_compute in E. done. }
    destruct (MarshalEvent_rep fmt h' e' m fp' Hev') as (n3 & Hm'). rewrite Er' in Hm'. exists n3, h', e'. split; [done|].
    intros f Hfu. unfold MarshalText. by rewrite Hm'.
Qed.
Print Assumptions C42_written_text_stays.
Example C42_written_text_stays_ex : ∃ h e, UnmarshalText emptyHeap newEvent (list_ascii_of_string " {""b"":10e-1, ""a"" : [""x"",null,{}]}") = (h, e, false) ∧ fields e ≠ None.
Proof. eexists _, _. split; [vm_compute; reflexivity|done]. Qed.
