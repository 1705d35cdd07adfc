(** * Property theorems for pipeline definitions in YAML: C75 (what is read) and C76 (from
    the file to the pipeline).

    [loadPipeline f]: what the program sawmill reads from the file [f]; None is an error,
    [Some None] a nil configuration.  [start unpack reg f]: the pipeline it makes from the
    file, with the registry [reg]; [Ok None]: it stops with an error.  A YAML document is
    given as its tree of nodes.  [definition_says n c] (Yaml.v): what the tree [n] says. *)
From Verif Require Import Yaml Builtins BuiltinsProps.
Local Open Scope Z_scope.

(** ** C75 *)
(** The configuration read is the one the first document says; everything else is an
    error: a file that cannot be opened or is no YAML or holds no document, repeated keys,
    values of the wrong kind. *)
Theorem C75_loads : ∀ f c, loadPipeline f = Some c ↔ ∃ n, f = FirstDocument n ∧ definition_says n c.
Proof.
  intros f c. split.
  - destruct f as [| | |n]; try done. intros H. exists n. split; [done|]. by apply config_iff.
  - intros (n & -> & H). by apply config_iff.
Qed.
Print Assumptions C75_loads.
(** A document says one thing, or nothing. *)
Theorem C75_one_reading : ∀ n c c', definition_says n c → definition_says n c' → c = c'.
Proof. intros n c c' H H'. apply config_iff in H, H'. congruence. Qed.
Print Assumptions C75_one_reading.
(** So for the options: a node shows one value at most. *)
Theorem C75_one_value : ∀ n v v', shows n v → shows n v' → v = v'.
Proof. intros n v v' H H'. apply any_iff in H, H'. congruence. Qed.
Print Assumptions C75_one_value.

(** No mistake is reported here: a member of the definition with a misspelled name is
    ignored, whatever it holds. *)
Lemma distinct_middle k n m1 m2 : distinct_keys (m1 ++ (k, n) :: m2) ↔
  (∀ k' n', (k', n') ∈ m1 ++ m2 → ¬ alike k k') ∧ distinct_keys (m1 ++ m2).
Proof.
  assert (∀ k k', alike k k' → alike k' k) as Hsym by (intros ? ? Ha; apply alike_iff in Ha; apply alike_iff; naive_solver).
  induction m1 as [|[k1 n1] m1 IH]; [apply distinct_cons|]. cbn [app]. rewrite !distinct_cons, IH. split.
  - intros (H1 & H2 & H3). split_and!; [|intros k' n' Hin; apply (H1 k' n'); rewrite elem_of_app, elem_of_cons in *; tauto|done].
    intros k' n' [[= -> ->]|Hin]%elem_of_cons Ha; [|by apply (H2 k' n')]. apply (H1 k n); [|by apply Hsym]. apply elem_of_app. right. left.
  - intros (H1 & H2 & H3). split_and!; [| |done].
    + intros k' n' Hin Ha. rewrite elem_of_app, elem_of_cons in Hin. destruct Hin as [Hin|[[= -> ->]|Hin]].
      * apply (H2 k' n'); [apply elem_of_app; by left|done].
      * apply (H1 k1 n1); [left|by apply Hsym].
      * apply (H2 k' n'); [apply elem_of_app; by right|done].
    + intros k' n' Hin. apply (H1 k' n'). by right.
Qed.
Lemma field_middle f k n m1 m2 : ¬ names k f → field f (m1 ++ (k, n) :: m2) = field f (m1 ++ m2).
Proof.
  intros H. induction m1 as [|[k1 n1] m1 IH]; [by apply field_other|]. cbn [app field]. by rewrite IH.
Qed.
Theorem C75_misspelled_ignored : ∀ m1 m2 k f n c, names k f → f ∉ ["id"; "description"; "processors"; "on_failure"] →
  (∀ k' n', (k', n') ∈ m1 ++ m2 → ¬ alike k k') →
  definition_says (YMap (m1 ++ (k, n) :: m2)) c ↔ definition_says (YMap (m1 ++ m2)) c.
Proof.
  intros m1 m2 k f n c Hf Hr Ha.
  assert (∀ m c, definition_says (YMap m) c ↔ ∃ id desc ps onf, c = Some (mkConfig id desc ps onf) ∧ distinct_keys m ∧ scalar_keys m ∧
    text_at "id" m "" id ∧ text_at "description" m "" desc ∧ list_at "processors" m [] ps ∧ list_at "on_failure" m [] onf) as Hsay.
  { clear. intros m c. split.
    - inversion 1 as [|? id desc ps onf Hd Hs H1 H2 H3 H4]; subst. exists id, desc, ps, onf. split; [done|]. split; [done|]. split; [done|].
      apply text_iff in H1, H2; [|done..]. apply list_iff in H3, H4; [|done|by intros; apply block_all..|done|by intros; apply block_all]. done.
    - intros (id & desc & ps & onf & -> & Hd & Hs & H1 & H2 & H3 & H4). apply ds_def; [done|done|by apply text_iff|by apply text_iff|..];
        (apply list_iff; [done|by intros; apply block_all|done]). }
  rewrite (Hsay (m1 ++ (k, n) :: m2)), (Hsay (m1 ++ m2)). setoid_rewrite distinct_middle. unfold text_at, list_at.
  assert (∀ g, g ∈ ["id"; "description"; "processors"; "on_failure"] → field g (m1 ++ (k, n) :: m2) = field g (m1 ++ m2)) as Hm.
  { intros g Hg. apply field_middle. intros Hn. apply Hr. by rewrite (names_unique _ _ _ Hf Hn). }
  pose proof (Hm "id" ltac:(rewrite !elem_of_cons; tauto)) as E1. pose proof (Hm "description" ltac:(rewrite !elem_of_cons; tauto)) as E2.
  pose proof (Hm "processors" ltac:(rewrite !elem_of_cons; tauto)) as E3. pose proof (Hm "on_failure" ltac:(rewrite !elem_of_cons; tauto)) as E4.
  setoid_rewrite E1. setoid_rewrite E2. setoid_rewrite E3. setoid_rewrite E4.
  assert (scalar_keys (m1 ++ (k, n) :: m2) ↔ scalar_keys (m1 ++ m2)) as Hs.
  { split; intros H k' n' Hin.
    - apply (H k' n'). rewrite elem_of_app, elem_of_cons in *. tauto.
    - rewrite elem_of_app, elem_of_cons in Hin. destruct Hin as [Hin|[[= -> ->]|Hin]]; [|destruct Hf as (v & _ & ->); eauto|];
        apply (H k' n'); rewrite elem_of_app; tauto. }
  naive_solver.
Qed.
Print Assumptions C75_misspelled_ignored.

Definition str (s : string) : ynode := YLeaf s LStr.
Definition ex_yaml : ynode := YMap
  [(str "id", YLeaf "7" (LInt 7));
   (str "procesors", YLeaf "oops" LStr);
   (str "processors", YSeq
     [YMap [(str "set", YMap [(str "target_field", str "a"); (str "value", YLeaf "0x10" (LInt 16)); (str "if", YLeaf "true" (LBool true));
                              (str "opts", YMap [(str "k", YLeaf "~" LNull)]);
                              (str "codes", YMap [(YLeaf "200" (LInt 200), str "ok"); (YLeaf "~" LNull, YSeq [])])])];
      YMap [(str "drop", YLeaf "" LNull)]]);
   (YLeaf "~" LNull, str "x")].
Example C75_ex : loadPipeline (FirstDocument ex_yaml) = Some (Some (mkConfig "7" ""
  [[("set", Some (OptCfg "" "true" []
      [("codes", VGeneral [(VInt 200, VStr "ok"); (VNil, VList [])]); ("opts", VMap [("k", VNil)]); ("target_field", VStr "a"); ("value", VInt 16)]))];
   [("drop", None)]] [])) ∧
  loadPipeline (FirstDocument (YMap [(str "id", str "a"); (YLeaf "id" LStr, str "b")])) = None ∧
  loadPipeline (FirstDocument (YMap [(str "id", YSeq [])])) = None ∧
  loadPipeline (FirstDocument (YLeaf "" LNull)) = Some None.
Proof. split_and!; reflexivity. Qed.

(** ** C76 *)
(** The pipeline started is the one pipeline.New makes of what the file says. *)
Theorem C76_starts : ∀ (CfgVal : Type) (unpack : string → ymap → CfgVal + goerr) reg f pl,
  start unpack reg f = Ok (Some pl) ↔
  ∃ n c, f = FirstDocument n ∧ definition_says n (Some c) ∧ New [] unpack reg c = Ok (inl pl).
Proof.
  intros CfgVal unpack reg f pl. unfold start. split.
  - destruct (loadPipeline f) as [[c|]|] eqn:E; [|done..]. apply C75_loads in E as (n & -> & Hn).
    destruct (New _ _ _ c) as [[p|]|] eqn:En; [|done..]. intros [= ->]. by exists n, c.
  - intros (n & c & -> & Hn & Hp). rewrite (proj2 (C75_loads _ (Some c))) by eauto. by rewrite Hp.
Qed.
Print Assumptions C76_starts.
(** With the built-in processors, it does what the file says ([defines], Builtins.v). *)
Theorem C76_does_what_is_written : ∀ lo up unpack names r h n c b,
  imports lo up names r → unpacks unpack h → definition_says n (Some c) → defines lo up [] unpack names h c b →
  ∃ pl, start unpack r (FirstDocument n) = Ok (Some pl) ∧ pipe_as h b pl.
Proof.
  intros lo up unpack names r h n c b Hi Hu Hn Hd.
  destruct (proj2 (C57_new_builds_what_is_defined lo up _ [] unpack names r h c Hi Hu) b Hd) as (pl & H1 & H2).
  exists pl. split; [|done]. apply C76_starts. eauto.
Qed.
Print Assumptions C76_does_what_is_written.
(** Whatever the file, the program does not crash while it starts, unless the first document
    is empty or null. *)
Lemma yaml_builtins_sound lo up names r (unpack : string → ymap → bcfg + goerr) h : imports lo up names r → unpacks unpack h → sound_constructors unpack r.
Proof.
  intros Him Hu ty k v Hk [m Hm]. apply (imported_holds _ _ _ _ Him) in Hk as (_ & zero & Hz & ->). cbn [c_cfgtype c_call c_err_nilable] in *.
  split; [done|]. destruct (Hu _ _ _ Hm) as [Hty _]. cbn [new_func f_call]. rewrite Hty, String.eqb_refl. unfold construct.
  eexists _, _. split; [reflexivity|]. cbn [pr_config]. by intros m' [= <-] _.
Qed.
Theorem C76_never_crashes : ∀ lo up unpack names r h f,
  imports lo up names r → unpacks unpack h → (∀ text, f ≠ FirstDocument (YLeaf text LNull)) →
  start unpack r f ≠ Panic.
Proof.
  intros lo up unpack names r h f Hi Hu Hf. unfold start. destruct (loadPipeline f) as [[c|]|] eqn:E; [| |done].
  - pose proof (New_returns [] unpack r c (yaml_builtins_sound _ _ _ _ _ _ Hi Hu)) as H. by destruct (New _ _ _ c) as [[]|].
  - apply C75_loads in E as (n & -> & Hn). inversion Hn as [t|]; subst. by destruct (Hf t).
Qed.
Print Assumptions C76_never_crashes.
(** It does crash when it is, whatever is registered. *)
Theorem C76_null_document_refuted : ∀ (CfgVal : Type) (unpack : string → ymap → CfgVal + goerr) reg text,
  start unpack reg (FirstDocument (YLeaf text LNull)) = Panic.
Proof. done. Qed.
Print Assumptions C76_null_document_refuted.

(** A definition that meets the hypotheses: lowercase with an on_failure handler. *)
Definition ex_y_unpack (ty : string) (m : ymap) : bcfg + goerr :=
  if String.eqb ty "lowercase.Config" then
    match mget "field" m with Some (VStr f) => inl (CfLowercase f f false) | _ => Datatypes.inr (EMsg "missing required field") end
  else Datatypes.inr (EMsg "not used").
Definition ex_y_lo (s : string) : string := if String.eqb s "A" then "a" else s.
Definition ex_y_doc : ynode := YMap
  [(str "id", str "p");
   (str "processors", YSeq [YMap [(str "lowercase", YMap [(str "field", str "a");
      (str "on_failure", YSeq [YMap [(str "lowercase", YMap [(str "field", str "b")])]])])]])].
Definition ex_y_config : config ymap := mkConfig "p" ""
  [[("lowercase", Some (OptCfg "" "" [[("lowercase", Some (OptCfg "" "" [] [("field", VStr "b")]))]] [("field", VStr "a")]))]] [].
Example C76_ex : ∃ r b, imports ex_y_lo ex_y_lo ["lowercase"] r ∧ unpacks ex_y_unpack (mkHeap [] []) ∧
  definition_says ex_y_doc (Some ex_y_config) ∧ defines ex_y_lo ex_y_lo [] ex_y_unpack ["lowercase"] (mkHeap [] []) ex_y_config b.
Proof.
  assert (NoDup ["lowercase"]) as Hn by (apply NoDup_singleton).
  assert (∀ x, x ∈ ["lowercase"] → x ∈ packages) as Hp by (intros x ->%elem_of_list_singleton; left).
  destruct (C57_imports ex_y_lo ex_y_lo ["lowercase"] Hn Hp) as (r & Hr & _).
  assert (imports ex_y_lo ex_y_lo ["lowercase"] r) as Hi by done.
  assert (unpacks ex_y_unpack (mkHeap [] [])) as Hu.
  { intros ty m v. unfold ex_y_unpack. destruct (String.eqb_spec ty "lowercase.Config") as [->|?]; [|done].
    destruct (mget "field" m) as [[]|]; try done. intros [= <-]. done. }
  assert (∃ pl, New [] ex_y_unpack r ex_y_config = Ok (inl pl)) as [pl Hpl].
  { cbn in Hr. injection Hr as <-. eexists. vm_compute. reflexivity. }
  destruct (proj1 (C57_new_builds_what_is_defined ex_y_lo ex_y_lo _ [] ex_y_unpack ["lowercase"] r (mkHeap [] []) ex_y_config Hi Hu) pl Hpl) as (b & Hb & _).
  exists r, b. refine (conj Hi (conj Hu (conj _ Hb))). by apply config_iff.
Qed.
