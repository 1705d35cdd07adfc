(** * C72: String() of the built-in processors.

    [proc_String f h c]: what String() returns for a processor with the configuration [c]
    ([h]: the memory its value refers to, [f]: large enough, it matters for nested values
    only).  [parse]: the JSON reader, the grammar of RFC 8259 by C53.  [fix_utf8 s]: [s] with
    its invalid bytes replaced, [s] itself if it is valid UTF-8. *)
From Verif Require Import ConfigString JsonProps FloatProps.
Local Open Scope Z_scope.

(** [s] is the name, an equals sign, one line of JSON text that says [j], and a newline. *)
Definition is_line (s : list ascii) (name : string) (j : json) : Prop :=
  ∃ text, s = list_ascii_of_string name ++ "="%char :: text ++ [ascii_of_nat 10] ∧
    Forall (λ c, (32 ≤ nat_of_ascii c)%nat) text ∧ parse text = Some j.
Lemma line_of t j name : reads t j → is_line (ConfigString name (Some t)) name j.
Proof.
  intros R. exists t. split; [done|]. split; [|by apply reads_parse]. destruct R as (_ & H & _). eapply Forall_impl; [exact H|].
  intros c Hc. unfold printable, bz in Hc. unfold nat_of_ascii. lia.
Qed.
Ltac member := apply Forall2_cons; split; [split; [reflexivity|cbn [snd]; first [apply reads_quoted|apply reads_bool|apply reads_int|assumption]]|].

(** ** Every option is in it, under its name *)
Theorem C72_lowercase : ∀ f h field im target, ∃ s, proc_String f h (PcLowercase field im target) = Ok s ∧
  is_line s "lowercase" (JObj [("Field", JStr (fix_utf8 field)); ("IgnoreMissing", JBool im); ("TargetField", JStr (fix_utf8 target))]).
Proof. intros. eexists. split; [reflexivity|]. apply line_of, reads_struct. do 3 member. by apply Forall2_nil. Qed.
Print Assumptions C72_lowercase.
Theorem C72_uppercase : ∀ f h field im target, ∃ s, proc_String f h (PcUppercase field im target) = Ok s ∧
  is_line s "uppercase" (JObj [("Field", JStr (fix_utf8 field)); ("IgnoreMissing", JBool im); ("TargetField", JStr (fix_utf8 target))]).
Proof. intros. eexists. split; [reflexivity|]. apply line_of, reads_struct. do 3 member. by apply Forall2_nil. Qed.
Print Assumptions C72_uppercase.
Theorem C72_append : ∀ f h ad field im value, ∃ s, proc_String f h (PcAppend ad field im value) = Ok s ∧
  is_line s "append" (JObj [("AllowDuplicates", JBool ad); ("Field", JStr (fix_utf8 field)); ("IgnoreMissing", JBool im); ("Value", JStr (fix_utf8 value))]).
Proof. intros. eexists. split; [reflexivity|]. apply line_of, reads_struct. do 4 member. by apply Forall2_nil. Qed.
Print Assumptions C72_append.
Theorem C72_remove : ∀ f h fields im, ∃ s, proc_String f h (PcRemove fields im) = Ok s ∧
  is_line s "remove" (JObj [("Fields", match fields with None => JNull | Some l => JArr (map (λ x, JStr (fix_utf8 x)) l) end); ("IgnoreMissing", JBool im)]).
Proof.
  intros. eexists. split; [reflexivity|]. apply line_of, reads_struct. apply Forall2_cons. split; [split; [reflexivity|]; cbn [snd]|member; by apply Forall2_nil].
  destruct fields as [l|]; [apply reads_strings|apply reads_null].
Qed.
Print Assumptions C72_remove.
Theorem C72_community_id : ∀ f h di dp ia ic it fl sd si sp tf tr, ∃ s, proc_String f h (PcCommunityID di dp ia ic it fl sd si sp tf tr) = Ok s ∧
  is_line s "community_id" (JObj [("DestinationIP", JStr (fix_utf8 di)); ("DestinationPort", JStr (fix_utf8 dp)); ("IANANumber", JStr (fix_utf8 ia));
    ("ICMPCode", JStr (fix_utf8 ic)); ("ICMPType", JStr (fix_utf8 it)); ("IgnoreFailure", JBool fl); ("Seed", JNum (sd <? 0) (Z.abs sd) 0);
    ("SourceIP", JStr (fix_utf8 si)); ("SourcePort", JStr (fix_utf8 sp)); ("TargetField", JStr (fix_utf8 tf)); ("Transport", JStr (fix_utf8 tr))]).
Proof. intros. eexists. split; [reflexivity|]. apply line_of, reads_struct. do 11 member. by apply Forall2_nil. Qed.
Print Assumptions C72_community_id.
(** set: the value is shown with all the fields of the Go struct.  [float]: some decimal the
    nearest double of which is the Float field ([double_for], C53).  [items_json],
    [members_json] (ConfigString.v): JNull for a nil slice or map, else the JSON values of
    what it holds (C42), which must have no NaN or infinity in it and nest at most 10000
    deep. *)
Theorem C72_set : ∀ h from ign im target v arr obj, finite64 (v_float v) = true →
  items_json h (v_arr v) arr → members_json h (v_obj v) obj →
  ∃ n s neg m e, double_for neg m e (v_float v) ∧ (∀ f, (n ≤ f)%nat → proc_String f h (PcSet from ign im target v) = Ok s) ∧
    is_line s "set" (JObj [("CopyFrom", JStr (fix_utf8 from)); ("IgnoreFailure", JBool ign); ("IgnoreMissing", JBool im); ("TargetField", JStr (fix_utf8 target));
      ("Value", JObj [("Integer", JNum (v_int v <? 0) (Z.abs (v_int v)) 0); ("UnsignedInteger", JNum (v_uint v <? 0) (Z.abs (v_uint v)) 0);
        ("Float", JNum neg m e); ("Timestamp", JStr (time_text (v_ts v))); ("String", JStr (fix_utf8 (v_str v)));
        ("Array", arr); ("Object", obj); ("Bool", JBool (v_bool v)); ("Type", JNum false (Z.of_N (v_type v)) 0)])]).
Proof.
  intros h from ign im target v arr obj Hf Ha Ho. destruct (eventvalue_reads h v arr obj Hf Ha Ho) as (n & t & R & E).
  pose proof (go_float_ok _ Hf) as G. unfold jfloat in R. destruct (go_float (v_float v)) as [[neg m] e]. destruct G as [Hm Hd].
  apply (double_for_iff neg m e _ Hm) in Hd.
  exists n. eexists. exists neg, m, e. split; [exact Hd|]. split.
  { intros f Hle. unfold proc_String. cbn [conf_text]. rewrite E by done. cbn [jbind]. reflexivity. }
  apply line_of, reads_struct. do 4 member. apply Forall2_cons. split; [split; [reflexivity|]|by apply Forall2_nil]. cbn [snd].
  assert (jint (Z.of_N (v_type v)) = JNum false (Z.of_N (v_type v)) 0) as Et.
  { unfold jint. destruct (Z.ltb_spec (Z.of_N (v_type v)) 0); [lia|]. by rewrite Z.abs_eq by lia. }
  rewrite Et in R. exact R.
Qed.
Print Assumptions C72_set.

(** ** No two are shown alike *)
(** The options are valid UTF-8; a set processor's value has no array, object, NaN or
    infinity in it, its time is an int64. *)
Definition plain_options (c : pconf) : Prop :=
  match c with
  | PcLowercase f _ t | PcUppercase f _ t => valid_utf8 f ∧ valid_utf8 t
  | PcAppend _ f _ v => valid_utf8 f ∧ valid_utf8 v
  | PcRemove l _ => match l with None => True | Some l => Forall valid_utf8 l end
  | PcSet c _ _ t v => valid_utf8 c ∧ valid_utf8 t ∧ valid_utf8 (v_str v) ∧ v_arr v = None ∧ v_obj v = None ∧
      finite64 (v_float v) = true ∧ - 2 ^ 63 ≤ v_ts v < 2 ^ 63
  | PcCommunityID a b c d e _ _ f g h i => Forall valid_utf8 [a; b; c; d; e; f; g; h; i]
  end.
Lemma is_line_inj s name name' j j' : is_line s name j → is_line s name' j' →
  "="%char ∉ list_ascii_of_string name → "="%char ∉ list_ascii_of_string name' → name = name' ∧ j = j'.
Proof.
  intros (t & E & _ & P) (t' & E' & _ & P') N N'. rewrite E in E'. clear E.
  assert (list_ascii_of_string name = list_ascii_of_string name' ∧ t = t') as [En Et].
  { revert E' N N'. generalize (list_ascii_of_string name) (list_ascii_of_string name'). intros l. induction l as [|a l IH]; intros [|b l'] E' N N'; cbn [app] in E'.
    - injection E' as E'. split; [done|]. by apply app_inj_tail in E' as [-> _].
    - injection E' as <- _. exfalso. apply N'. left.
    - injection E' as -> _. exfalso. apply N. left.
    - injection E' as <- E'. destruct (IH l' E') as [-> ->]; [| |by split].
      + intros H. apply N. by right.
      + intros H. apply N'. by right. }
  split; [|by subst; congruence]. rewrite <- (list_string name), <- (list_string name'). by rewrite En.
Qed.
Lemma jint_inj z z' : JNum (z <? 0) (Z.abs z) 0 = JNum (z' <? 0) (Z.abs z') 0 → z = z'.
Proof. intros [= E1 E2]. destruct (Z.ltb_spec z 0), (Z.ltb_spec z' 0); try done; lia. Qed.
(** The object written: for the proof only. *)
Definition conf_json (c : pconf) : json :=
  match c with
  | PcLowercase f m t | PcUppercase f m t => JObj [("Field", JStr f); ("IgnoreMissing", JBool m); ("TargetField", JStr t)]
  | PcAppend d f m v => JObj [("AllowDuplicates", JBool d); ("Field", JStr f); ("IgnoreMissing", JBool m); ("Value", JStr v)]
  | PcRemove l m => JObj [("Fields", match l with None => JNull | Some l => JArr (map JStr l) end); ("IgnoreMissing", JBool m)]
  | PcSet c g m t v => JObj [("CopyFrom", JStr c); ("IgnoreFailure", JBool g); ("IgnoreMissing", JBool m); ("TargetField", JStr t);
      ("Value", JObj [("Integer", jint (v_int v)); ("UnsignedInteger", jint (v_uint v)); ("Float", jfloat go_float (v_float v));
        ("Timestamp", JStr (time_text (v_ts v))); ("String", JStr (v_str v)); ("Array", JNull); ("Object", JNull);
        ("Bool", JBool (v_bool v)); ("Type", jint (Z.of_N (v_type v)))])]
  | PcCommunityID di dp ia ic it fl sd si sp tf tr =>
      JObj [("DestinationIP", JStr di); ("DestinationPort", JStr dp); ("IANANumber", JStr ia); ("ICMPCode", JStr ic); ("ICMPType", JStr it);
        ("IgnoreFailure", JBool fl); ("Seed", jint sd); ("SourceIP", JStr si); ("SourcePort", JStr sp); ("TargetField", JStr tf); ("Transport", JStr tr)]
  end.
Lemma conf_line f h c s : plain_options c → proc_String f h c = Ok s → is_line s (pc_name c) (conf_json c).
Proof.
  intros Hp Hs. destruct c; cbn [plain_options] in Hp; cbn [pc_name conf_json].
  - destruct (C72_lowercase f h field ignore_missing target) as (s' & E & L). rewrite E in Hs. injection Hs as <-.
    destruct Hp as [P1 P2]. rewrite !(proj2 (fix_utf8_iff _)) in L by assumption. exact L.
  - destruct (C72_uppercase f h field ignore_missing target) as (s' & E & L). rewrite E in Hs. injection Hs as <-.
    destruct Hp as [P1 P2]. rewrite !(proj2 (fix_utf8_iff _)) in L by assumption. exact L.
  - destruct (C72_append f h allow_duplicates field ignore_missing value) as (s' & E & L). rewrite E in Hs. injection Hs as <-.
    destruct Hp as [P1 P2]. rewrite !(proj2 (fix_utf8_iff _)) in L by assumption. exact L.
  - destruct (C72_remove f h fields ignore_missing) as (s' & E & L). rewrite E in Hs. injection Hs as <-.
    destruct fields as [l|]; [|exact L].
    assert (map (λ x, JStr (fix_utf8 x)) l = map JStr l) as El; [|rewrite El in L; exact L].
    clear -Hp. induction Hp as [|x l Hx _ IH]; [done|]. cbn [map]. by rewrite IH, (proj2 (fix_utf8_iff _) Hx).
  - destruct Hp as (P1 & P2 & P3 & P4 & P5 & P6 & _).
    assert (∀ g, eventvalue_text g h value = eventvalue_text f h value) as Hg by (intros g; unfold eventvalue_text; rewrite P4, P5; reflexivity).
    destruct (eventvalue_reads h value JNull JNull P6) as (n & t & R & Et); [by rewrite P4|by rewrite P5|].
    specialize (Et n (Nat.le_refl n)). rewrite Hg in Et. rewrite (proj2 (fix_utf8_iff _) P3) in R.
    unfold proc_String in Hs. cbn [conf_text] in Hs. rewrite Et in Hs. cbn [jbind] in Hs. unfold jret in Hs. apply (f_equal (λ o, match o with Ok x => x | Panic => [] end)) in Hs. cbv beta iota in Hs. subst s.
    apply line_of, reads_struct. pose proof (reads_quoted copy_from) as R1. rewrite (proj2 (fix_utf8_iff _) P1) in R1. pose proof (reads_quoted target) as R2. rewrite (proj2 (fix_utf8_iff _) P2) in R2.
    repeat (apply Forall2_cons; split; [split; [reflexivity|]|]); [exact R1|apply reads_bool|apply reads_bool|exact R2|exact R|apply Forall2_nil; done].
  - destruct (C72_community_id f h dst_ip dst_port iana icmp_code icmp_type ignore_failure seed src_ip src_port target transport) as (s' & E & L). rewrite E in Hs. injection Hs as <-.
    repeat (apply Forall_cons in Hp as [? Hp]). rewrite !(proj2 (fix_utf8_iff _)) in L by assumption. exact L.
Qed.
Lemma jfloat_inj b b' : finite64 b = true → finite64 b' = true → jfloat go_float b = jfloat go_float b' → b = b'.
Proof.
  intros F F' E. eapply C64_distinct; [exact (floatEncoder_render b F)|]. rewrite (floatEncoder_render b' F'). unfold jfloat in E.
  destruct (go_float b) as [[? ?] ?], (go_float b') as [[? ?] ?]. by injection E as -> -> ->.
Qed.
Lemma conf_json_inj c c' : plain_options c → plain_options c' → pc_name c = pc_name c' → conf_json c = conf_json c' → c = c'.
Proof.
  intros P P' N E. destruct c, c'; try done; cbn [conf_json plain_options] in *.
  - by injection E as -> -> ->.
  - by injection E as -> -> ->.
  - by injection E as -> -> -> ->.
  - injection E as E ->. destruct fields as [l|], fields0 as [l'|]; try done. injection E as E. f_equal. f_equal. clear P P' N. revert l' E.
    induction l as [|x l IH]; intros [|y l'] E; try done. injection E as -> E. by rewrite (IH l' E).
  - destruct P as (_ & _ & _ & A1 & O1 & F1 & T1). destruct P' as (_ & _ & _ & A2 & O2 & F2 & T2).
    assert (copy_from = copy_from0 ∧ ignore_failure = ignore_failure0 ∧ ignore_missing = ignore_missing0 ∧ target = target0) as (-> & -> & -> & ->) by (repeat split; congruence).
    f_equal. assert (jint (v_int value) = jint (v_int value0)) as E1 by congruence. assert (jint (v_uint value) = jint (v_uint value0)) as E2 by congruence.
    assert (jfloat go_float (v_float value) = jfloat go_float (v_float value0)) as E3 by congruence. assert (time_text (v_ts value) = time_text (v_ts value0)) as E4 by congruence.
    assert (v_str value = v_str value0) as E5 by congruence. assert (v_bool value = v_bool value0) as E6 by congruence. assert (jint (Z.of_N (v_type value)) = jint (Z.of_N (v_type value0))) as E7 by congruence.
    apply jint_inj in E1, E2, E7. apply N2Z.inj in E7. apply jfloat_inj in E3; [|exact F1|exact F2]. apply C43_injective in E4; [|exact T1|exact T2].
    clear -A1 A2 O1 O2 E1 E2 E3 E4 E5 E6 E7. destruct value, value0. simpl in *. by subst.
  - assert (jint seed = jint seed0) as Es by congruence. apply jint_inj in Es. subst seed0. f_equal; congruence.
Qed.
Theorem C72_distinct : ∀ f h c f' h' c' s, plain_options c → plain_options c' →
  proc_String f h c = Ok s → proc_String f' h' c' = Ok s → c = c'.
Proof.
  intros f h c f' h' c' s P P' E E'. assert (∀ c, "="%char ∉ list_ascii_of_string (pc_name c)) as Hn.
  { intros []; cbn; intros H; repeat (apply elem_of_cons in H as [H|H]; [done|]); by apply elem_of_nil in H. }
  destruct (is_line_inj s _ _ _ _ (conf_line f h c s P E) (conf_line f' h' c' s P' E') (Hn c) (Hn c')). by apply conf_json_inj.
Qed.
Print Assumptions C72_distinct.

(** ** What it does not show *)
(** With a NaN or infinity in the value nothing but the name is shown; the error is lost. *)
Theorem C72_nan_refuted : ∀ f h from ign im target v, finite64 (v_float v) = false →
  proc_String f h (PcSet from ign im target v) = Ok (list_ascii_of_string "set=").
Proof. intros f h from ign im target v Hf. unfold proc_String. cbn [conf_text]. unfold eventvalue_text. rewrite Hf. reflexivity. Qed.
Print Assumptions C72_nan_refuted.
(** Inside an array the integer 1 and the float 1.0 look the same. *)
Theorem C72_nested_refuted : ∃ h v v' s, v ≠ v' ∧
  rep_list h [Some 0%nat] [TInt 1] [] ∧ v_arr v = Some [Some 0%nat] ∧ rep_list h [Some 1%nat] [TFloat 0x3FF0000000000000] [] ∧ v_arr v' = Some [Some 1%nat] ∧
  proc_String 5 h (PcSet "" false false "x" v) = Ok s ∧ proc_String 5 h (PcSet "" false false "x" v') = Ok s.
Proof.
  exists (mkHeap [mkInteger 1; mkFloat 0x3FF0000000000000] []), (mkArray [Some 0%nat]), (mkArray [Some 1%nat]). eexists. split; [done|].
  split. { apply (rep_list_cons _ (Some 0%nat) [] (TInt 1) [] [] []); [|constructor]. by eapply rep_scalar. }
  split; [done|]. split. { apply (rep_list_cons _ (Some 1%nat) [] (TFloat 0x3FF0000000000000) [] [] []); [|constructor]. by eapply rep_scalar. }
  split; [done|]. split; vm_compute; reflexivity.
Qed.
Print Assumptions C72_nested_refuted.

(** Examples: text with quotes and markup; an array value. *)
Example C72_ex : proc_String 0 emptyHeap (PcAppend true "a.b" false "<""x"">") =
  Ok (list_ascii_of_string "append={""AllowDuplicates"":true,""Field"":""a.b"",""IgnoreMissing"":false,""Value"":""<\""x\"">""}" ++ [ascii_of_nat 10]).
Proof. vm_compute. reflexivity. Qed.
Example C72_set_ex : proc_String 5 (mkHeap [mkString "<"] []) (PcSet "" false true "x" (mkArray [Some 0%nat])) =
  Ok (list_ascii_of_string "set={""CopyFrom"":"""",""IgnoreFailure"":false,""IgnoreMissing"":true,""TargetField"":""x"",""Value"":{""Integer"":0,""UnsignedInteger"":0,""Float"":0,""Timestamp"":""1970-01-01T00:00:00Z"",""String"":"""",""Array"":[""\u003c""],""Object"":null,""Bool"":false,""Type"":1}}" ++ [ascii_of_nat 10]).
Proof. vm_compute. reflexivity. Qed.
Example C72_plain_ex : plain_options (PcSet "" false true "x" (mkString "<")).
Proof. split; [by apply ascii_string_valid|]. split; [by apply ascii_string_valid|]. split; [by apply ascii_string_valid|]. done. Qed.
