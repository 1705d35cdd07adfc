(** * String() of the built-in processors: pkg/processor/api.go:44-53. *)
From Verif Require Export FloatText.
From Coq Require Import Lia.
Local Open Scope Z_scope.

(** ** The model *)
(** encode.go string, an ASCII byte, with SetEscapeHTML(false): < > & are written as they are. *)
Definition esc1_plain (c : ascii) : list ascii :=
  if Ascii.eqb c q || Ascii.eqb c bs then [bs; c]
  else if bz c =? 10 then [bs; "n"%char]
  else if bz c =? 13 then [bs; "r"%char]
  else if bz c =? 9 then [bs; "t"%char]
  else if bz c <? 32 then u4 (bz c)
  else [c].
(** encode.go string: invalid UTF-8 is written \ufffd; U+2028 and U+2029 are escaped also
    without escapeHTML. *)
Fixpoint esc_plain (l : list ascii) : list ascii :=
  match l with
  | [] => []
  | b0 :: l1 =>
      if utf8_1 b0 then esc1_plain b0 ++ esc_plain l1
      else
        let bad := u4 0xFFFD ++ esc_plain l1 in
        match l1 with
        | [] => bad
        | b1 :: l2 =>
            if utf8_2 b0 b1 then b0 :: b1 :: esc_plain l2
            else
              match l2 with
              | [] => bad
              | b2 :: l3 =>
                  if utf8_3 b0 b1 b2 then
                    (if (bz b0 =? 0xE2) && (bz b1 =? 0x80) && ((bz b2 =? 0xA8) || (bz b2 =? 0xA9))
                     then u4 (0x2028 + (bz b2 - 0xA8)) else [b0; b1; b2]) ++ esc_plain l3
                  else
                    match l3 with
                    | [] => bad
                    | b3 :: l4 => if utf8_4 b0 b1 b2 b3 then b0 :: b1 :: b2 :: b3 :: esc_plain l4 else bad
                    end
              end
        end
  end.
Definition quoted (s : string) : list ascii := q :: esc_plain (list_ascii_of_string s) ++ [q].
(** encode.go arrayEncoder, sliceEncoder (a nil slice is null); structEncoder, mapEncoder. *)
Definition list_text (l : list (list ascii)) : list ascii := "["%char :: JsonText.join ","%char l ++ ["]"%char].
Definition member_text (kv : string * list ascii) : list ascii := quoted kv.1 ++ ":"%char :: kv.2.
Definition struct_text (fs : list (string * list ascii)) : list ascii := "{"%char :: JsonText.join ","%char (map member_text fs) ++ ["}"%char].
Definition null_text : list ascii := render JNull.
Definition bool_text (b : bool) : list ascii := render (JBool b).
Definition int_text (z : Z) : list ascii := render (jint z).

(** config.EventValue (pkg/config/config.go:25), a type of its own without MarshalJSON: the
    struct of pkg/event/value.go:57-67 is written field by field; its nested values and its
    Time have MarshalJSON, whose json.Marshal escapes < > &.  [None]: an error. *)
Definition eventvalue_text (fuel : nat) (h : heap) (v : Value) : Outcome (option (list ascii)) :=
  if negb (finite64 (v_float v)) then Ok None
  else
    jbind (match v_arr v with
           | None => jret null_text
           | Some l => jbind (jmapM (valueJSON go_float fuel h) l) (λ js, jret (list_text (map render js)))
           end) (λ a,
    jbind (match v_obj v with
           | None => jret null_text
           | Some r => jbind (jmapM (λ kv : string * option ptr, jbind (valueJSON go_float fuel h kv.2) (λ j, jret (kv.1, render j))) (map_of h (Some r)))
                         (λ ms, jret (struct_text ms))
           end) (λ o,
    jret (struct_text [
      ("Integer", int_text (v_int v)); ("UnsignedInteger", int_text (v_uint v));
      ("Float", render (jfloat go_float (v_float v))); ("Timestamp", render (JStr (time_text (v_ts v))));
      ("String", quoted (v_str v)); ("Array", a); ("Object", o);
      ("Bool", bool_text (v_bool v)); ("Type", int_text (Z.of_N (v_type v)))]))).

(** The Config structs with all their fields, in order: lowercase.go:34-47,
    uppercase.go:34-47, append.go:35-49, set.go:35-53, remove.go:34-41,
    community_id.go:35-70.  A nil []string is [None]. *)
Inductive pconf : Type :=
| PcLowercase (field : string) (ignore_missing : bool) (target : string)
| PcUppercase (field : string) (ignore_missing : bool) (target : string)
| PcAppend (allow_duplicates : bool) (field : string) (ignore_missing : bool) (value : string)
| PcRemove (fields : option (list string)) (ignore_missing : bool)
| PcSet (copy_from : string) (ignore_failure ignore_missing : bool) (target : string) (value : Value)
| PcCommunityID (dst_ip dst_port iana icmp_code icmp_type : string) (ignore_failure : bool) (seed : Z)
    (src_ip src_port target transport : string).
(** The constants processorName of each package. *)
Definition pc_name (c : pconf) : string :=
  match c with
  | PcLowercase _ _ _ => "lowercase" | PcUppercase _ _ _ => "uppercase" | PcAppend _ _ _ _ => "append"
  | PcRemove _ _ => "remove" | PcSet _ _ _ _ _ => "set" | PcCommunityID _ _ _ _ _ _ _ _ _ _ _ => "community_id"
  end.
Definition conf_text (fuel : nat) (h : heap) (c : pconf) : Outcome (option (list ascii)) :=
  match c with
  | PcLowercase f m t | PcUppercase f m t =>
      jret (struct_text [("Field", quoted f); ("IgnoreMissing", bool_text m); ("TargetField", quoted t)])
  | PcAppend d f m v =>
      jret (struct_text [("AllowDuplicates", bool_text d); ("Field", quoted f); ("IgnoreMissing", bool_text m); ("Value", quoted v)])
  | PcRemove l m =>
      jret (struct_text [("Fields", match l with None => null_text | Some l => list_text (map quoted l) end); ("IgnoreMissing", bool_text m)])
  | PcSet c f m t v =>
      jbind (eventvalue_text fuel h v) (λ x,
        jret (struct_text [("CopyFrom", quoted c); ("IgnoreFailure", bool_text f); ("IgnoreMissing", bool_text m); ("TargetField", quoted t); ("Value", x)]))
  | PcCommunityID di dp i c t f s si sp tf tr =>
      jret (struct_text [("DestinationIP", quoted di); ("DestinationPort", quoted dp); ("IANANumber", quoted i); ("ICMPCode", quoted c); ("ICMPType", quoted t);
        ("IgnoreFailure", bool_text f); ("Seed", int_text s); ("SourceIP", quoted si); ("SourcePort", quoted sp); ("TargetField", quoted tf); ("Transport", quoted tr)])
  end.
(** api.go:44-53: Encode writes the text and a newline, or nothing if there is an error,
    which is ignored. *)
Definition ConfigString (name : string) (enc : option (list ascii)) : list ascii :=
  list_ascii_of_string name ++ "="%char :: match enc with Some t => t ++ [zb 10] | None => [] end.
(** The String methods: lowercase.go:69-71, uppercase.go:69-71, append.go:76-78,
    set.go:77-79, remove.go:65-67, community_id.go:113-115. *)
Definition proc_String (fuel : nat) (h : heap) (c : pconf) : Outcome (list ascii) :=
  match conf_text fuel h c with Ok o => Ok (ConfigString (pc_name c) o) | Panic => Panic end.

(** ** What is written is read back *)
Lemma parse_esc1_plain c l : utf8_1 c = true → parse_str (esc1_plain c ++ l) = pcons [c] (parse_str l).
Proof.
  intros Hc. pose proof (parse_esc1 c l Hc) as H. unfold esc1, esc1_plain in *.
  destruct (Ascii.eqb c q || Ascii.eqb c bs) eqn:E1; [exact H|]. destruct (bz c =? 10) eqn:E2; [exact H|]. destruct (bz c =? 13) eqn:E3; [exact H|]. destruct (bz c =? 9) eqn:E4; [exact H|].
  destruct (bz c <? 32) eqn:E5; [exact H|].
  apply orb_false_iff in E1 as [Q1 Q2]. cbn [app parse_str]. by rewrite Q1, Q2, E5, Hc.
Qed.
Lemma parse_esc_plain l rest : parse_str (esc_plain l ++ q :: rest) = Some (fix_bytes l, rest).
Proof.
  remember (length l) as n eqn:Hn. revert l Hn. induction (lt_wf n) as [n _ IH]. intros l ->.
  assert (∀ l', (length l' < length l)%nat → parse_str (esc_plain l' ++ q :: rest) = Some (fix_bytes l', rest)) as IH'.
  { intros l' Hl'. exact (IH _ Hl' _ eq_refl). }
  clear IH. destruct l as [|b0 l1]; [done|]. cbn [esc_plain fix_bytes].
  destruct (utf8_1 b0) eqn:E1.
  { rewrite <- app_assoc, parse_esc1_plain by done. rewrite IH' by (simpl; lia). done. }
  destruct (not_ascii_not_special b0 E1) as (S1 & S2 & S3).
  assert (parse_str ((u4 0xFFFD ++ esc_plain l1) ++ q :: rest) = Some (runeError ++ fix_bytes l1, rest)) as Hbad.
  { rewrite <- app_assoc, parse_u4 by lia. rewrite IH' by (simpl; lia). done. }
  destruct l1 as [|b1 l2]; [exact Hbad|].
  destruct (utf8_2 b0 b1) eqn:E2.
  { rewrite <- !app_comm_cons. cbn [parse_str]. rewrite S1, S2, S3, E1, E2. rewrite IH' by (simpl; lia). done. }
  destruct l2 as [|b2 l3]; [exact Hbad|].
  destruct (utf8_3 b0 b1 b2) eqn:E3.
  { destruct ((bz b0 =? 0xE2) && (bz b1 =? 0x80) && ((bz b2 =? 0xA8) || (bz b2 =? 0xA9))) eqn:Els.
    - rewrite !andb_true_iff, orb_true_iff, !Z.eqb_eq in Els. destruct Els as [[L0 L1] L2].
      rewrite <- app_assoc, parse_u4 by lia. rewrite IH' by (simpl; lia). cbn [pcons].
      assert (utf8_encode (0x2028 + (bz b2 - 0xA8)) = [b0; b1; b2]) as ->; [|done].
      rewrite <- (zb_bz b0), <- (zb_bz b1), L0, L1. destruct L2 as [L2|L2]; rewrite <- (zb_bz b2), L2; vm_compute; reflexivity.
    - rewrite <- app_assoc. cbn [app parse_str]. rewrite S1, S2, S3, E1, E2, E3. rewrite IH' by (simpl; lia). done. }
  destruct l3 as [|b3 l4]; [exact Hbad|].
  destruct (utf8_4 b0 b1 b2 b3) eqn:E4; [|exact Hbad].
  rewrite <- !app_comm_cons. cbn [parse_str]. rewrite S1, S2, S3, E1, E2, E3, E4. rewrite IH' by (simpl; lia). done.
Qed.
Lemma parse_quoted s rest :
  ∃ l, quoted s ++ rest = q :: l ∧ parse_str l = Some (list_ascii_of_string (fix_utf8 s), rest).
Proof.
  unfold quoted. exists (esc_plain (list_ascii_of_string s) ++ q :: rest). split.
  - simpl. by rewrite <- app_assoc.
  - rewrite parse_esc_plain. unfold fix_utf8. by rewrite list_ascii_of_string_of_list_ascii.
Qed.

(** [t] is a text of the JSON value [j], wherever it stands. *)
Definition reads (t : list ascii) (j : json) : Prop :=
  (∃ c l, t = c :: l ∧ is_ws c = false ∧ c ≠ "]"%char ∧ c ≠ "}"%char) ∧ Forall printable t ∧
  ∀ n rest, (2 * length t ≤ n)%nat → num_end rest → pvalue n (t ++ rest) = Some (j, rest).
Lemma reads_render j : jwf j → reads (render j) (jfix j).
Proof.
  intros Hw. split; [by apply render_head|]. split; [by apply render_printable|]. intros n rest Hn Hr. apply pvalue_render; [done| |done].
  pose proof (jfuel_length j Hw). lia.
Qed.
Lemma esc_plain_printable l : Forall printable (esc_plain l).
Proof.
  remember (length l) as n eqn:Hn. revert l Hn. induction (lt_wf n) as [n _ IH]. intros l ->.
  assert (∀ l', (length l' < length l)%nat → Forall printable (esc_plain l')) as IH' by (intros l' Hl'; exact (IH _ Hl' _ eq_refl)).
  clear IH. destruct l as [|b0 l1]; [constructor|]. cbn [esc_plain].
  destruct (utf8_1 b0) eqn:E1.
  { apply Forall_app. split; [|apply IH'; simpl; lia]. pose proof (esc1_printable b0 E1) as H. unfold esc1, esc1_plain in *.
    destruct (_ || _); [exact H|]. destruct (_ =? 10); [exact H|]. destruct (_ =? 13); [exact H|]. destruct (_ =? 9); [exact H|].
    destruct (Z.ltb_spec (bz b0) 32); [exact H|]. apply List.Forall_cons; [exact H0|apply List.Forall_nil]. }
  pose proof (utf8_1_false_printable _ E1) as P0.
  assert (Forall printable (u4 0xFFFD ++ esc_plain l1)) as Hbad.
  { apply Forall_app. split; [apply u4_printable; lia|]. apply IH'. simpl. lia. }
  destruct l1 as [|b1 l2]; [exact Hbad|].
  destruct (utf8_2 b0 b1) eqn:E2.
  { unfold utf8_2 in E2. apply andb_true_iff in E2 as [_ E2]. apply inr_printable in E2; [|lia].
    repeat (constructor; [done|]). apply IH'. simpl. lia. }
  destruct l2 as [|b2 l3]; [exact Hbad|].
  destruct (utf8_3 b0 b1 b2) eqn:E3.
  { unfold utf8_3 in E3. rewrite !andb_true_iff, !orb_true_iff, !andb_true_iff, !inr_spec in E3.
    apply Forall_app. split; [|apply IH'; simpl; lia].
    destruct (_ && _ && _) eqn:El.
    - rewrite !andb_true_iff, orb_true_iff, !Z.eqb_eq in El. apply u4_printable. lia.
    - repeat (apply List.Forall_cons; [done || (unfold printable; lia)|]). apply List.Forall_nil. }
  destruct l3 as [|b3 l4]; [exact Hbad|].
  destruct (utf8_4 b0 b1 b2 b3) eqn:E4; [|exact Hbad].
  unfold utf8_4 in E4. rewrite !andb_true_iff, !orb_true_iff, !andb_true_iff, !inr_spec in E4.
  repeat (apply List.Forall_cons; [done || (unfold printable; lia)|]). apply IH'. simpl. lia.
Qed.
Lemma quoted_printable s : Forall printable (quoted s).
Proof.
  unfold quoted. apply List.Forall_cons; [by vm_compute|]. apply Forall_app. split; [apply esc_plain_printable|].
  apply List.Forall_cons; [by vm_compute|apply List.Forall_nil].
Qed.
Lemma reads_quoted s : reads (quoted s) (JStr (fix_utf8 s)).
Proof.
  split; [by eexists _, _|]. split; [apply quoted_printable|]. intros n rest Hn Hr. assert (2 ≤ length (quoted s))%nat by (unfold quoted; cbn [length]; rewrite app_length; cbn [length]; lia).
  destruct n as [|n]; [lia|]. cbn [pvalue]. destruct (parse_quoted s rest) as (l & -> & Hp).
  cbn [skip_ws]. change (is_ws q) with false. cbv iota. change (Ascii.eqb q q) with true. cbv iota. rewrite Hp.
  by rewrite list_string.
Qed.
Lemma join_printable sep l : printable sep → Forall (Forall printable) l → Forall printable (JsonText.join sep l).
Proof.
  intros Hs. induction l as [|x l IH]; intros H; [apply List.Forall_nil|]. apply Forall_cons in H as [Hx H]. specialize (IH H).
  destruct l as [|y l]; [exact Hx|]. change (JsonText.join sep (x :: y :: l)) with (x ++ sep :: JsonText.join sep (y :: l)). apply Forall_app. split; [exact Hx|].
  apply List.Forall_cons; done.
Qed.
Lemma reads_list ts js : Forall2 reads ts js → reads (list_text ts) (JArr js).
Proof.
  intros HF. unfold list_text. split; [by eexists _, _|]. split.
  { apply List.Forall_cons; [by vm_compute|]. apply Forall_app. split; [|apply List.Forall_cons; [by vm_compute|apply List.Forall_nil]].
    apply join_printable; [by vm_compute|]. clear -HF. induction HF as [|t j ts js (_ & H & _) _ IH]; [apply List.Forall_nil|]. apply List.Forall_cons; done. }
  intros n rest Hn Hr. destruct n as [|n]; [simpl in Hn; lia|]. cbn [app]. rewrite <- app_assoc. cbn [pvalue skip_ws].
  change (is_ws "["%char) with false. cbv iota. change (Ascii.eqb "["%char q) with false. change (Ascii.eqb "["%char "["%char) with true. cbv iota.
  destruct HF as [|t j ts js Ht HF]; [done|].
  assert (∃ c' r', skip_ws (JsonText.join ","%char (t :: ts) ++ ["]"%char] ++ rest) = c' :: r' ∧ Ascii.eqb c' "]"%char = false) as (c' & r' & -> & Hc').
  { destruct Ht as ((c & l & -> & Hc & H1 & _) & _). assert (∃ t', JsonText.join ","%char ((c :: l) :: ts) = c :: t') as (t' & ->) by (destruct ts; by eexists).
    simpl. rewrite Hc. eexists _, _. split; [reflexivity|]. by apply Ascii.eqb_neq. }
  rewrite Hc'. assert (pelems n (JsonText.join ","%char (t :: ts) ++ ["]"%char] ++ rest) = Some (j :: js, rest)) as ->; [|done].
  cbn [length] in Hn. rewrite app_length in Hn. cbn [length] in Hn. assert (2 * length (JsonText.join ","%char (t :: ts)) + 1 ≤ n)%nat as Hn' by lia. clear Hn Hc' c' r'.
  revert t j Ht n Hn'. induction HF as [|t1 j1 ts js Ht1 HF IH]; intros t j Ht n Hn; (destruct n as [|n]; [lia|]); cbn [pelems].
  - cbn [JsonText.join]. destruct Ht as (_ & _ & Ht). rewrite Ht; [done|cbn [JsonText.join] in Hn; lia|done].
  - change (JsonText.join ","%char (t :: t1 :: ts)) with (t ++ ","%char :: JsonText.join ","%char (t1 :: ts)) in *. rewrite app_length in Hn. cbn [length] in Hn.
    assert (1 ≤ length t)%nat as Hl by (destruct Ht as ((c & l & -> & _) & _); cbn [length]; lia).
    rewrite <- app_assoc, <- app_comm_cons. destruct Ht as (_ & _ & Ht). rewrite Ht; [|lia|done]. cbn [skip_ws].
    change (is_ws ","%char) with false. cbv iota. change (Ascii.eqb ","%char ","%char) with true. cbv iota. rewrite (IH t1 j1 Ht1 n); [done|lia].
Qed.
Lemma reads_struct ts js : Forall2 (λ x y, y.1 = fix_utf8 x.1 ∧ reads x.2 y.2) ts js → reads (struct_text ts) (JObj js).
Proof.
  intros HF. unfold struct_text. split; [by eexists _, _|]. split.
  { apply List.Forall_cons; [by vm_compute|]. apply Forall_app. split; [|apply List.Forall_cons; [by vm_compute|apply List.Forall_nil]].
    apply join_printable; [by vm_compute|]. clear -HF. induction HF as [|t j ts js (_ & _ & H & _) _ IH]; [apply List.Forall_nil|]. cbn [map]. apply List.Forall_cons; [|done].
    unfold member_text. apply Forall_app. split; [apply quoted_printable|]. apply List.Forall_cons; [by vm_compute|done]. }
  intros n rest Hn Hr. destruct n as [|n]; [simpl in Hn; lia|]. cbn [app]. rewrite <- app_assoc. cbn [pvalue skip_ws].
  change (is_ws "{"%char) with false. cbv iota. change (Ascii.eqb "{"%char q) with false. change (Ascii.eqb "{"%char "["%char) with false. change (Ascii.eqb "{"%char "{"%char) with true. cbv iota.
  destruct HF as [|t j ts js Ht HF]; [done|]. cbn [map] in *.
  assert (∃ c' r', skip_ws (JsonText.join ","%char (member_text t :: map member_text ts) ++ ["}"%char] ++ rest) = c' :: r' ∧ Ascii.eqb c' "}"%char = false) as (c' & r' & -> & Hc').
  { assert (∃ t', JsonText.join ","%char (member_text t :: map member_text ts) = q :: t') as (t' & ->) by (destruct (map member_text ts); by eexists).
    by eexists _, _. }
  rewrite Hc'. assert (pmembers n (JsonText.join ","%char (member_text t :: map member_text ts) ++ ["}"%char] ++ rest) = Some (j :: js, rest)) as ->; [|done].
  cbn [length] in Hn. rewrite app_length in Hn. cbn [length] in Hn. assert (2 * length (JsonText.join ","%char (member_text t :: map member_text ts)) + 1 ≤ n)%nat as Hn' by lia. clear Hn Hc' c' r'.
  revert t j Ht n Hn'. induction HF as [|t1 j1 ts js Ht1 HF IH]; intros [k t] [k' j] [Hk Ht] n Hn; (destruct n as [|n]; [lia|]); cbn [fst snd] in *; subst k'.
  - cbn [map JsonText.join] in *. unfold member_text in *. cbn [fst snd] in *. rewrite app_length in Hn. cbn [length] in Hn. rewrite <- app_assoc, <- app_comm_cons. cbn [pmembers].
    destruct (parse_quoted k (":"%char :: t ++ ["}"%char] ++ rest)) as (l & -> & Hp).
    cbn [skip_ws]. change (is_ws q) with false. cbv iota. change (Ascii.eqb q q) with true. cbv iota. rewrite Hp.
    cbn [skip_ws]. change (is_ws ":"%char) with false. cbv iota. change (Ascii.eqb ":"%char ":"%char) with true. cbv iota.
    destruct Ht as (_ & _ & Ht). rewrite Ht; [|lia|done]. cbn. by rewrite list_string.
  - cbn [map]. change (JsonText.join ","%char (member_text (k, t) :: member_text t1 :: map member_text ts)) with (member_text (k, t) ++ ","%char :: JsonText.join ","%char (member_text t1 :: map member_text ts)) in *.
    cbn [map] in Hn. change (JsonText.join ","%char (member_text (k, t) :: member_text t1 :: map member_text ts)) with (member_text (k, t) ++ ","%char :: JsonText.join ","%char (member_text t1 :: map member_text ts)) in Hn.
    unfold member_text at 1. unfold member_text at 1 in Hn. cbn [fst snd] in *. rewrite app_length in Hn. cbn [length] in Hn. rewrite app_length in Hn. cbn [length] in Hn.
    do 3 (rewrite <- ?app_assoc; cbn [app]). cbn [pmembers].
    destruct (parse_quoted k (":"%char :: t ++ ","%char :: JsonText.join ","%char (member_text t1 :: map member_text ts) ++ "}"%char :: rest)) as (l & -> & Hp).
    cbn [skip_ws]. change (is_ws q) with false. cbv iota. change (Ascii.eqb q q) with true. cbv iota. rewrite Hp.
    cbn [skip_ws]. change (is_ws ":"%char) with false. cbv iota. change (Ascii.eqb ":"%char ":"%char) with true. cbv iota.
    destruct Ht as (_ & _ & Ht). rewrite Ht; [|lia|done]. cbn [skip_ws].
    change (is_ws ","%char) with false. cbv iota. change (Ascii.eqb ","%char ","%char) with true. cbv iota. 
    change ("}"%char :: rest) with (["}"%char] ++ rest). rewrite (IH t1 j1 Ht1 n); [by rewrite list_string|lia].
Qed.
Lemma reads_parse t j : reads t j → parse t = Some j.
Proof.
  intros (_ & _ & H). unfold parse. specialize (H (S (2 * length t)) []). rewrite app_nil_r in H. rewrite H; [done|lia|done].
Qed.

(** ** The texts of the Config structs *)
Lemma go_format : float_format go_float.
Proof. apply go_float_ok. Qed.
Lemma reads_bool b : reads (bool_text b) (JBool b).
Proof. exact (reads_render (JBool b) I). Qed.
Lemma reads_null : reads null_text JNull.
Proof. exact (reads_render JNull I). Qed.
Lemma reads_int z : reads (int_text z) (jint z).
Proof. refine (reads_render (jint z) _). simpl. lia. Qed.
Lemma reads_time z : reads (render (JStr (time_text z))) (JStr (time_text z)).
Proof. pose proof (reads_render (JStr (time_text z)) I) as H. cbn [jfix] in H. by rewrite (proj2 (fix_utf8_iff _) (time_text_valid z)) in H. Qed.
Lemma reads_float b : finite64 b = true → reads (render (jfloat go_float b)) (jfloat go_float b).
Proof.
  intros Hf. pose proof (go_float_ok b Hf) as H. unfold jfloat. destruct (go_float b) as [[neg m] e]. destruct H as [Hm _].
  exact (reads_render (JNum neg m e) Hm).
Qed.
Lemma reads_strings l : reads (list_text (map quoted l)) (JArr (map (λ s, JStr (fix_utf8 s)) l)).
Proof. apply reads_list. induction l as [|s l IH]; [by apply Forall2_nil|]. cbn [map]. apply Forall2_cons. split; [apply reads_quoted|done]. Qed.
Lemma jmapM_step {A B} (f : A → Outcome (option B)) x l :
  jmapM f (x :: l) = jbind (f x) (λ y, jbind (jmapM f l) (λ ys, Ok (Some (y :: ys)))).
Proof. done. Qed.
Lemma jmapM_app_fst {A} (f : A → Outcome (option json)) (g : A → string) l :
  jmapM (λ a, jbind (f a) (λ j, jret (g a, render j))) l =
  match jmapM (λ a, jbind (f a) (λ j, jret (g a, j))) l with Ok (Some js) => Ok (Some (map (λ kj : string * json, (kj.1, render kj.2)) js)) | Ok None => Ok None | Panic => Panic end.
Proof.
  induction l as [|a l IH]; [done|]. rewrite !jmapM_step, IH. destruct (f a) as [[j|]|]; cbn [jbind jret]; [|done|done].
  set (x := jmapM _ l). by destruct x as [[js|]|].
Qed.
(** What the Array and Object fields of a Value show, as JSON. *)
Definition items_json (h : heap) (o : option (list (option ptr))) (j : json) : Prop :=
  match o with
  | None => j = JNull
  | Some l => ∃ ts fps js, rep_list h l ts fps ∧ j = JArr js ∧
      Forall2 (λ t x, ∃ y, json_of_tree go_float t = Some y ∧ jdepth y ≤ 10000 ∧ x = jfix y) ts js
  end.
Definition members_json (h : heap) (o : option mref) (j : json) : Prop :=
  match o with
  | None => j = JNull
  | Some r => ∃ m fps js, rep_assoc h (map_of h (Some r)) m fps ∧ j = JObj js ∧
      Forall2 (λ kt kx, kx.1 = fix_utf8 kt.1 ∧ ∃ y, json_of_tree go_float kt.2 = Some y ∧ jdepth y ≤ 10000 ∧ kx.2 = jfix y) m js
  end.
Lemma checked_some t y : json_of_tree go_float t = Some y → jdepth y ≤ 10000 → checked (json_of_tree go_float t) = Some y.
Proof. intros -> H. cbn [checked]. unfold maxNestingDepth. destruct (Z.leb_spec (jdepth y) 10000); [done|lia]. Qed.
Lemma items_text h o j : items_json h o j → ∃ n t, reads t j ∧ ∀ f, (n ≤ f)%nat →
  match o with
  | None => jret null_text
  | Some l => jbind (jmapM (valueJSON go_float f h) l) (λ js, jret (list_text (map render js)))
  end = Ok (Some t).
Proof.
  destruct o as [l|]; cbn [items_json].
  2:{ intros ->. exists 0%nat, null_text. split; [apply reads_null|done]. }
  intros (ts & fps & js & Hr & -> & HF). destruct (proj1 (proj2 (valueJSON_rep go_float h)) l ts fps Hr) as (n & Hn).
  assert (∃ ys, osequence (map checked (map (json_of_tree go_float) ts)) = Some ys ∧ Forall2 reads (map render ys) js) as (ys & Ey & HR).
  { clear Hr Hn. induction HF as [|t x ts js (y & Ht & Hd & ->) HF (ys & E & HR)]; [exists []; split; [reflexivity|by apply Forall2_nil]|].
    exists (y :: ys). cbn [map osequence]. rewrite (checked_some t y Ht Hd), E. split; [done|]. apply Forall2_cons. split; [|done].
    apply reads_render. exact (jwf_of_tree go_float t go_format y Ht). }
  exists n, (list_text (map render ys)). split; [by apply reads_list|]. intros f Hf. rewrite Hn by done. rewrite Ey. done.
Qed.
Lemma members_text h o j : members_json h o j → ∃ n t, reads t j ∧ ∀ f, (n ≤ f)%nat →
  match o with
  | None => jret null_text
  | Some r => jbind (jmapM (λ kv : string * option ptr, jbind (valueJSON go_float f h kv.2) (λ j, jret (kv.1, render j))) (map_of h (Some r))) (λ ms, jret (struct_text ms))
  end = Ok (Some t).
Proof.
  destruct o as [r|]; cbn [members_json].
  2:{ intros ->. exists 0%nat, null_text. split; [apply reads_null|done]. }
  intros (m & fps & js & Hr & -> & HF). destruct (proj2 (proj2 (valueJSON_rep go_float h)) _ m fps Hr) as (n & Hn).
  assert (∃ ys, assoc_checked go_float m = Some ys ∧ Forall2 (λ x y, y.1 = fix_utf8 x.1 ∧ reads x.2 y.2) (map (λ kj : string * json, (kj.1, render kj.2)) ys) js) as (ys & Ey & HR).
  { clear Hr Hn. unfold assoc_checked. induction HF as [|[k t] [k' x] m js (Hk & y & Ht & Hd & Hx) HF (ys & E & HR)]; [exists []; split; [reflexivity|by apply Forall2_nil]|]. cbn [fst snd] in *.
    exists ((k, y) :: ys). cbn [map osequence fst snd]. rewrite (checked_some t y Ht Hd), E. split; [done|]. apply Forall2_cons. split; [|done]. cbn [fst snd].
    split; [done|]. subst x. apply reads_render. exact (jwf_of_tree go_float t go_format y Ht). }
  exists n, (struct_text (map (λ kj : string * json, (kj.1, render kj.2)) ys)). split; [by apply reads_struct|]. intros f Hf.
  rewrite jmapM_app_fst. rewrite Hn by done. rewrite Ey. done.
Qed.
Ltac member := apply Forall2_cons; split; [split; [reflexivity|cbn [snd]; first [apply reads_quoted|apply reads_bool|apply reads_int|apply reads_time|assumption]]|].
Lemma eventvalue_reads h v aj oj : finite64 (v_float v) = true → items_json h (v_arr v) aj → members_json h (v_obj v) oj →
  ∃ n t, reads t (JObj [("Integer", jint (v_int v)); ("UnsignedInteger", jint (v_uint v)); ("Float", jfloat go_float (v_float v));
      ("Timestamp", JStr (time_text (v_ts v))); ("String", JStr (fix_utf8 (v_str v))); ("Array", aj); ("Object", oj);
      ("Bool", JBool (v_bool v)); ("Type", jint (Z.of_N (v_type v)))]) ∧
    ∀ f, (n ≤ f)%nat → eventvalue_text f h v = Ok (Some t).
Proof.
  intros Hf Ha Ho. destruct (items_text h _ aj Ha) as (n1 & ta & Ra & Ea). destruct (members_text h _ oj Ho) as (n2 & to & Ro & Eo).
  pose proof (reads_float _ Hf) as Rf. exists (Nat.max n1 n2). eexists. split.
  2:{ intros f Hle. unfold eventvalue_text. rewrite Hf. cbn [negb]. rewrite Ea by lia. cbn [jbind]. rewrite Eo by lia. cbn [jbind]. reflexivity. }
  apply reads_struct. do 9 member. by apply Forall2_nil.
Qed.
