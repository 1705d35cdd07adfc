(** * What the JSON text of a pipeline definition says, independently of the code.

    [def_means j c]: the JSON value [j] read as a definition (pkg/pipeline/config.go:25-39)
    is [c].  [means j t] and [later_wins] (JsonMeaning.v): what JSON values say as plain
    data. *)
From Verif Require Export ConfigJsonFacts JsonMeaning.
From Coq Require Import Lia.
Local Open Scope Z_scope.

(** ** Specification *)
(** A member's key [k] names the field [n], which is in small letters: any letter may be a
    capital, and an s may be U+017F, the long s. *)
Inductive spelled : list ascii → list ascii → Prop :=
| sp_end : spelled [] []
| sp_same c n k : spelled n k → spelled (c :: n) (c :: k)
| sp_capital c n k : 97 ≤ bz c ≤ 122 → spelled n k → spelled (c :: n) (zb (bz c - 32) :: k)
| sp_long n k : spelled n k → spelled ("s"%char :: n) (utf8_encode 0x17F ++ k).
Definition names_field (n k : string) : Prop := spelled (list_ascii_of_string n) (list_ascii_of_string k).
(** The values given for the field [n], in order. *)
Inductive given (n : string) : list (string * json) → list json → Prop :=
| gv_end : given n [] []
| gv_hit k j m l : names_field n k → given n m l → given n ((k, j) :: m) (j :: l)
| gv_miss k j m l : ¬ names_field n k → given n m l → given n ((k, j) :: m) l.
(** A text field: strings and nulls are allowed; the last string counts. *)
Inductive text_field : list json → string → Prop :=
| tf_none l : Forall (eq JNull) l → text_field l ""
| tf_last l s l' : Forall (λ j, j = JNull ∨ ∃ s, j = JStr s) l → Forall (eq JNull) l' → text_field (l ++ JStr s :: l') s.

(** A list of processors is kept in numbered places of which the first few count; a field
    given several times is read into the same places.  [(a, n)]: place i holds [a i], the
    first [n] count. *)
Definition places : Type := (nat → pcfg) * nat.
(** A processor's options: a block; a processor: an object from names to blocks or nulls;
    a list of processors. *)
Inductive block_means : json → ocfg → Prop :=
| bm_block m ids id conds cond onfs a n fs cfg :
    given "id" m ids → text_field ids id →
    given "if" m conds → text_field conds cond →
    given "on_failure" m onfs → lists_mean onfs (λ _, [], O) (a, n) →
    (* the other members are the processor's options *)
    means (JObj m) (TObj fs) → msorted cfg →
    (∀ k t, (k, t) ∈ cfg ↔ (k, t) ∈ fs ∧ k ≠ "id" ∧ k ≠ "if" ∧ k ≠ "on_failure") →
    block_means (JObj m) (OptCfg id cond (map a (seq 0 n)) cfg)
with entries_mean : list (string * json) → pcfg → Prop :=
| em_end : entries_mean [] []
| em_null k e es : entries_mean e es → entries_mean ((k, JNull) :: e) ((k, None) :: es)
| em_block k j c e es : block_means j c → entries_mean e es → entries_mean ((k, j) :: e) ((k, Some c) :: es)
(** An element read into a place that holds [old]: the entries are added to those there. *)
with element_means : json → pcfg → pcfg → Prop :=
| el_null old : element_means JNull old []
| el_entries e es old new : entries_mean e es → later_wins (old ++ es) new → element_means (JObj e) old new
(** A value for a list: null and [[]] empty all places. *)
with list_means : json → places → places → Prop :=
| lm_null st : list_means JNull st (λ _, [], O)
| lm_empty st : list_means (JArr []) st (λ _, [], O)
| lm_array l a n a' : l ≠ [] →
    (∀ i p, l !! i = Some p → element_means p (a i) (a' i)) → (∀ i, (length l ≤ i)%nat → a' i = a i) →
    list_means (JArr l) (a, n) (a', length l)
with lists_mean : list json → places → places → Prop :=
| ls_end st : lists_mean [] st st
| ls_more j l st st1 st2 : list_means j st st1 → lists_mean l st1 st2 → lists_mean (j :: l) st st2.
(** A definition; members that name no field are ignored. *)
Inductive def_means : json → config cfgmap → Prop :=
| dm_null : def_means JNull (mkConfig "" "" [] [])
| dm_def m ids id descs desc ps a n onfs a' n' :
    given "id" m ids → text_field ids id →
    given "description" m descs → text_field descs desc →
    given "processors" m ps → lists_mean ps (λ _, [], O) (a, n) →
    given "on_failure" m onfs → lists_mean onfs (λ _, [], O) (a', n') →
    def_means (JObj m) (mkConfig id desc (map a (seq 0 n)) (map a' (seq 0 n'))).

(** ** Proofs *)
Definition letters (n : list ascii) : Prop := Forall (λ c, (97 ≤ bz c ≤ 122) ∨ bz c = 95) n.
Lemma lower1_small c x : (97 ≤ bz c ≤ 122) ∨ bz c = 95 → lower1 x = c ↔ x = c ∨ (97 ≤ bz c ≤ 122 ∧ x = zb (bz c - 32)).
Proof.
  intros Hc. pose proof (bz_range x). unfold lower1. destruct (inr 65 90 x) eqn:E.
  - apply inr_spec in E. split.
    + intros <-. right. rewrite bz_zb by lia. split; [lia|]. replace (bz x + 32 - 32) with (bz x) by lia. by rewrite zb_bz.
    + intros [->|[H1 ->]]; [lia|]. rewrite bz_zb by lia. replace (bz c - 32 + 32) with (bz c) by lia. apply zb_bz.
  - split; [by left|]. intros [->|[H1 ->]]; [done|]. exfalso. apply not_true_iff_false in E. apply E, inr_spec. rewrite bz_zb; lia.
Qed.
Lemma spelled_iff n : letters n → ∀ k, spelled n k ↔ lower_bytes k = n.
Proof.
  induction 1 as [|c n Hc Hn IH]; intros k.
  - split; [by inversion 1|]. destruct k as [|x [|y k]]; [constructor|done|]. cbn [lower_bytes]. by destruct (_ && _).
  - split.
    + inversion 1 as [|? ? k' Hk|? ? k' Hc' Hk|? k' Hk]; subst.
      * apply IH in Hk. rewrite lower_bytes_cons by lia. rewrite Hk. f_equal. apply lower1_small; [done|by left].
      * apply IH in Hk. rewrite lower_bytes_cons by (rewrite bz_zb; lia). rewrite Hk. f_equal. apply lower1_small; [done|by right].
      * apply IH in Hk. change (lower_bytes (utf8_encode 383 ++ k')) with ("s"%char :: lower_bytes k'). by rewrite Hk.
    + intros E. destruct k as [|x k]; [done|]. destruct (decide (bz x = 0xC5)) as [Ex|Ex].
      * assert (lower1 x = x) as Hx.
        { unfold lower1. destruct (inr 65 90 x) eqn:E'; [|done]. apply inr_spec in E'. lia. }
        destruct k as [|y k]; cbn [lower_bytes] in E.
        { injection E as E1 E2. rewrite Hx in E1. subst. lia. }
        destruct (Z.eqb_spec (bz x) 0xC5); [|done]. destruct (Z.eqb_spec (bz y) 0xBF) as [Ey|Ey]; cbn [andb] in E.
        -- injection E as <- E. apply IH in E. rewrite <- (zb_bz x), <- (zb_bz y), Ex, Ey. by apply (sp_long n k).
        -- injection E as E1 E2. rewrite Hx in E1. subst. lia.
      * rewrite lower_bytes_cons in E by done. injection E as E1 E2. apply IH in E2. apply lower1_small in E1 as [->|[H1 ->]]; [by apply sp_same|by apply sp_capital|done].
Qed.
Lemma names_iff n k : letters (list_ascii_of_string n) → names_field n k ↔ lower k = n.
Proof.
  intros Hn. unfold names_field. rewrite spelled_iff by done. unfold lower. split; intros H.
  - rewrite H. apply string_of_list_ascii_of_string.
  - rewrite <- H. by rewrite list_ascii_of_string_of_list_ascii.
Qed.
Lemma given_iff n m l : letters (list_ascii_of_string n) → given n m l ↔ l = occ n m.
Proof.
  intros Hn. revert l. induction m as [|[k j] m IH]; intros l.
  - split; [by inversion 1|]. intros ->. constructor.
  - rewrite occ_cons. pose proof (names_iff n k Hn) as Hk. destruct (String.eqb_spec (lower k) n) as [E|E].
    + split.
      * inversion 1 as [|? ? ? l' H1 H2|? ? ? ? H1 H2]; subst; [f_equal; by apply IH|]. exfalso. apply H1. by apply Hk.
      * intros ->. apply gv_hit; [by apply Hk|by apply IH].
    + split.
      * inversion 1 as [|? ? ? l' H1 H2|? ? ? ? H1 H2]; subst; [|by apply IH]. exfalso. apply E. by apply Hk.
      * intros ->. apply gv_miss; [by rewrite Hk|by apply IH].
Qed.
Lemma letters_names : letters (list_ascii_of_string "id") ∧ letters (list_ascii_of_string "if") ∧ letters (list_ascii_of_string "on_failure") ∧
  letters (list_ascii_of_string "description") ∧ letters (list_ascii_of_string "processors").
Proof.
  assert (∀ l, forallb (λ c, (97 <=? bz c) && (bz c <=? 122) || (bz c =? 95)) l = true → letters l) as H.
  { intros l Hl. apply Forall_forall. intros c Hc. rewrite forallb_forall in Hl. specialize (Hl c ltac:(by apply elem_of_list_In)).
    apply orb_true_iff in Hl as [Hl|Hl]; [|right; lia]. apply andb_true_iff in Hl as [? ?]. left. lia. }
  split_and!; apply H; reflexivity.
Qed.
Lemma nulls_string l s : Forall (eq JNull) l → dec_string l s = Some s.
Proof. induction 1 as [|j l <- Hl IH]; [done|]. done. Qed.
Lemma text_field_iff l s : text_field l s ↔ dec_string l "" = Some s.
Proof.
  split.
  - intros [l' Hl|l1 s' l' H1 H2]; [by apply nulls_string|]. generalize "". induction H1 as [|j l1 Hj H1 IH]; intros s0; cbn [app].
    + cbn [dec_string]; by apply nulls_string.
    + destruct Hj as [->|[s1 ->]]; cbn [dec_string]; apply IH.
  - assert (∀ l s0, dec_string l s0 = Some s → (Forall (eq JNull) l ∧ s = s0) ∨
      ∃ l1 l2, l = l1 ++ JStr s :: l2 ∧ Forall (λ j, j = JNull ∨ ∃ s, j = JStr s) l1 ∧ Forall (eq JNull) l2) as H.
    { clear. induction l as [|j l IH]; intros s0 E; [injection E as ->; left; split; [constructor|done]|].
      destruct j; try done; cbn [dec_string] in E; apply IH in E as [[H ->]|(l1 & l2 & -> & H1 & H2)].
      - left. split; [by constructor|done].
      - right. exists (JNull :: l1), l2. split_and!; [done| |done]. constructor; [by left|done].
      - right. eexists [], l. split_and!; [done|constructor|done].
      - right. eexists (JStr _ :: l1), l2. split_and!; [done| |done]. constructor; [right; by eexists|done]. }
    intros E. apply H in E as [[H1 ->]|(l1 & l2 & -> & H1 & H2)]; [by apply tf_none|by apply tf_last].
Qed.

(** Blocks. *)
Definition block_ok (j : json) : Prop := jvalid j → ∀ c, block_means j c ↔ j ≠ JNull ∧ opt_of_json j = Some c.
Lemma entries_iff e : Forall (λ kv, block_ok kv.2 ∧ jvalid kv.2) e → ∀ es, entries_mean e es ↔ osequence (map dec_entry e) = Some es.
Proof.
  induction 1 as [|[k j] e [Hj Hv] He IH]; intros es.
  - split; [by inversion 1|]. intros [= <-]. constructor.
  - specialize (Hj Hv). cbn [map osequence]. split.
    + inversion 1 as [|? ? es' H1|? ? c ? es' Hb H1]; subst; apply IH in H1; rewrite H1; [done|].
      apply Hj in Hb as [Hn Hb]. cbn [snd] in *. unfold dec_entry. rewrite Hb. by destruct j.
    + intros H. destruct (dec_entry (k, j)) as [x|] eqn:Ex; [|done]. destruct (osequence (map dec_entry e)) as [es'|]; [|done].
      injection H as <-. assert (entries_mean e es') as Hes by (by apply IH).
      assert (j = JNull ∨ j ≠ JNull) as [->|Hn] by (destruct j; auto).
      * cbn in Ex. injection Ex as <-. by apply em_null.
      * assert (∃ c, opt_of_json j = Some c ∧ x = (k, Some c)) as (c & Hc & ->).
        { unfold dec_entry in Ex. destruct j; try done; destruct (opt_of_json _) as [c|] in Ex |- *; try done; injection Ex as <-; eauto. }
        apply em_block; [|done]. by apply Hj.
Qed.
Definition proc_ok (p : json) : Prop := ∀ e, p = JObj e → Forall (λ kv, block_ok kv.2 ∧ jvalid kv.2) e.
Definition elem_over (x : option pcfg) (old : pcfg) : pcfg :=
  match x with None => [] | Some es => fold_left (λ m kv, mset kv.1 kv.2 m) es old end.
Lemma elem_over_sorted x old : msorted old → msorted (elem_over x old).
Proof.
  intros H. destruct x as [es|]; [|done]. cbn [elem_over]. revert old H. induction es as [|[k v] es IH]; intros old H; [done|].
  cbn [fold_left]. apply IH. by apply msorted_mset.
Qed.
Lemma element_iff p old new : proc_ok p → msorted old →
  element_means p old new ↔ ∃ x, dec_proc p = Some x ∧ new = elem_over x old.
Proof.
  intros Hp Ho. assert (∀ es, later_wins (old ++ es) new ↔ new = elem_over (Some es) old) as Hl.
  { intros es. assert (mof_list (old ++ es) = elem_over (Some es) old) as E.
    { unfold mof_list. rewrite fold_left_app. cbn [elem_over]. f_equal. exact (mof_list_sorted old Ho). }
    rewrite <- E. split; [|intros ->; apply mof_list_later]. intros H. eapply later_wins_unique; [exact H|apply mof_list_later]. }
  split.
  - inversion 1 as [|e es ? ? He Hw]; subst; [by exists None|]. apply entries_iff in He; [|by apply Hp].
    exists (Some es). split; [|by apply Hl]. cbn [dec_proc]. by rewrite He.
  - intros (x & Hx & ->). destruct p as [| | | | |e]; try done; cbn [dec_proc] in Hx; [injection Hx as <-; constructor|].
    destruct (osequence (map dec_entry e)) as [es|] eqn:E; [|done]. injection Hx as <-. apply (el_entries e es); [|by apply Hl].
    apply entries_iff; [by apply Hp|done].
Qed.
Lemma over_cons x xs b : over (x :: xs) b = elem_over x (hd [] b) :: over xs (tl b).
Proof. by destruct x. Qed.
Lemma nth_tl {A} i (b : list A) d : nth (S i) b d = nth i (tl b) d.
Proof. destruct b; [by destruct i|done]. Qed.
Lemma hd_sorted (b : list pcfg) : Forall msorted b → msorted (hd [] b) ∧ Forall msorted (tl b).
Proof. inversion 1; split; [exact I|apply List.Forall_nil|done|done]. Qed.
Lemma over_sorted xs : ∀ b, Forall msorted b → Forall msorted (over xs b).
Proof.
  induction xs as [|x xs IH]; intros b Hb; [done|]. rewrite over_cons. apply hd_sorted in Hb as [H1 H2].
  constructor; [by apply elem_over_sorted|by apply IH].
Qed.
Lemma over_length xs : ∀ b, (length xs ≤ length (over xs b))%nat.
Proof. induction xs as [|x xs IH]; intros b; [simpl; lia|]. rewrite over_cons. cbn [List.length]. specialize (IH (tl b)). lia. Qed.
Lemma elements_fwd l : Forall proc_ok l → ∀ b a', Forall msorted b →
  (∀ i p, l !! i = Some p → element_means p (nth i b []) (a' i)) → (∀ i, (length l ≤ i)%nat → a' i = nth i b []) →
  ∃ xs, osequence (map dec_proc l) = Some xs ∧ length xs = length l ∧ ∀ i, a' i = nth i (over xs b) [].
Proof.
  induction 1 as [|p l Hp Hl IH]; intros b a' Hb H1 H2.
  { exists []. split_and!; [done|done|]. intros i. apply H2. simpl. lia. }
  apply hd_sorted in Hb as [Hb1 Hb2].
  destruct (IH (tl b) (λ i, a' (S i)) Hb2) as (xs & E1 & E2 & E3).
  { intros i q Hq. rewrite <- nth_tl. by apply H1. }
  { intros i Hi. rewrite <- nth_tl. apply H2. cbn [List.length]. lia. }
  assert (element_means p (hd [] b) (a' O)) as Hx by (specialize (H1 O p eq_refl); by destruct b).
  apply element_iff in Hx as (x & Hx & Ha); [|done|done]. exists (x :: xs). cbn [map osequence]. rewrite Hx, E1. split_and!; [done|simpl; lia|].
  intros i. rewrite over_cons. destruct i as [|i]; [done|]. cbn [nth]. apply E3.
Qed.
Lemma elements_bwd l : Forall proc_ok l → ∀ xs b, osequence (map dec_proc l) = Some xs → Forall msorted b →
  (∀ i p, l !! i = Some p → element_means p (nth i b []) (nth i (over xs b) [])) ∧
  (∀ i, (length l ≤ i)%nat → nth i (over xs b) [] = nth i b []).
Proof.
  induction 1 as [|p l Hp Hl IH]; intros xs b E Hb.
  { injection E as <-. split; [|done]. intros i p H. by rewrite lookup_nil in H. }
  cbn [map osequence] in E. destruct (dec_proc p) as [x|] eqn:Ex; [|done]. destruct (osequence (map dec_proc l)) as [xs'|]; [|done].
  injection E as <-. apply hd_sorted in Hb as [Hb1 Hb2]. destruct (IH xs' (tl b) eq_refl Hb2) as [H1 H2]. rewrite over_cons. split.
  - intros [|i] q Hq.
    + injection Hq as <-. cbn [nth]. assert (nth 0 b [] = hd [] b) as -> by (by destruct b). apply element_iff; [done|done|]. by exists x.
    + cbn [nth]. change (match b with [] => [] | _ :: t => nth i t [] end) with (nth (S i) b []). rewrite nth_tl. by apply H1.
  - intros [|i] Hi; cbn [List.length] in Hi; [lia|]. rewrite (nth_tl i b). cbn [nth]. apply H2. lia.
Qed.
Definition list_ok (j : json) : Prop := ∀ l, j = JArr l → Forall proc_ok l.
(** The model's slice and the specification's places. *)
Definition agree (st : places) (sl : list pcfg * nat) : Prop :=
  Forall msorted sl.1 ∧ (sl.2 ≤ length sl.1)%nat ∧ st.2 = sl.2 ∧ ∀ i, st.1 i = nth i sl.1 [].
Lemma agree_empty : agree (λ _, [], O) ([], O).
Proof. split_and!; [constructor|simpl; lia|done|]. by intros []. Qed.
Lemma agree_places st b n : agree st (b, n) → map st.1 (seq 0 st.2) = firstn n b.
Proof.
  destruct st as [a n0]. intros (_ & Hle & Hn & Ha). cbn [fst snd] in *. subst n0.
  transitivity (map (λ i, nth i b []) (seq 0 n)); [apply map_ext; exact Ha|]. clear a Ha. revert b Hle.
  induction n as [|n IH]; intros b Hle; [done|]. destruct b as [|x b]; [simpl in Hle; lia|].
  cbn [seq map firstn nth]. f_equal. rewrite <- seq_shift, map_map. apply IH. simpl in Hle. lia.
Qed.
Lemma list_fwd j st st' sl : list_ok j → agree st sl → list_means j st st' →
  ∃ x, dec_procs j = Some x ∧ agree st' (slice_write sl x).
Proof.
  intros Hj (H1 & H2 & H3 & H4). inversion 1 as [|?|l a n a' Hne He Hr]; subst.
  - exists None. split; [done|]. apply agree_empty.
  - exists (Some []). split; [done|]. apply agree_empty.
  - cbn [fst snd] in *. destruct (elements_fwd l (Hj l eq_refl) sl.1 a') as (xs & E1 & E2 & E3); [done| | |].
    { intros i p Hp. rewrite <- H4. by apply He. }
    { intros i Hi. rewrite <- H4. by apply Hr. }
    exists (Some xs). cbn [dec_procs]. rewrite E1. split; [done|]. destruct xs as [|x xs]; [by destruct l|].
    cbn [slice_write]. split_and!; cbn [fst snd]; [by apply over_sorted|apply over_length|done|done].
Qed.
Lemma list_bwd j x st sl : list_ok j → agree st sl → dec_procs j = Some x →
  ∃ st', list_means j st st' ∧ agree st' (slice_write sl x).
Proof.
  intros Hj (H1 & H2 & H3 & H4) E. destruct j as [| | | |l|]; try done; cbn [dec_procs] in E.
  { injection E as <-. exists (λ _, [], O). split; [constructor|apply agree_empty]. }
  destruct (osequence (map dec_proc l)) as [xs|] eqn:Ex; [|done]. injection E as <-.
  destruct (elements_bwd l (Hj l eq_refl) xs sl.1 Ex H1) as [E1 E2].
  assert (length xs = length l) as Hlen. { apply osequence_all in Ex. symmetry. by eapply Forall2_length. }
  destruct xs as [|x xs]; [destruct l; [|done]; exists (λ _, [], O); split; [constructor|apply agree_empty]|].
  exists (λ i, nth i (over (x :: xs) sl.1) [], length l). destruct st as [a n]. cbn [fst snd] in *. split.
  - apply lm_array; [by intros ->| |].
    + intros i p Hp. rewrite H4. by apply E1.
    + intros i Hi. rewrite H4. by apply E2.
  - cbn [slice_write]. split_and!; cbn [fst snd]; [by apply over_sorted|apply over_length|done|done].
Qed.
Lemma lists_fwd l : Forall list_ok l → ∀ st st' sl, agree st sl → lists_mean l st st' →
  ∃ xs, osequence (map dec_procs l) = Some xs ∧ agree st' (fold_left slice_write xs sl).
Proof.
  induction 1 as [|j l Hj Hl IH]; intros st st' sl Ha; inversion 1 as [|? ? ? st1 ? H1 H2]; subst.
  - by exists [].
  - destruct (list_fwd _ _ _ _ Hj Ha H1) as (x & E1 & A1). destruct (IH _ _ _ A1 H2) as (xs & E2 & A2).
    exists (x :: xs). cbn [map osequence]. by rewrite E1, E2.
Qed.
Lemma lists_bwd l : Forall list_ok l → ∀ xs st sl, agree st sl → osequence (map dec_procs l) = Some xs →
  ∃ st', lists_mean l st st' ∧ agree st' (fold_left slice_write xs sl).
Proof.
  induction 1 as [|j l Hj Hl IH]; intros xs st sl Ha E.
  - injection E as <-. exists st. split; [constructor|done].
  - cbn [map osequence] in E. destruct (dec_procs j) as [x|] eqn:Ex; [|done]. destruct (osequence (map dec_procs l)) as [xs'|]; [|done].
    injection E as <-. destruct (list_bwd _ _ _ _ Hj Ha Ex) as (st1 & M1 & A1). destruct (IH xs' st1 _ A1 eq_refl) as (st2 & M2 & A2).
    exists st2. split; [by eapply ls_more|done].
Qed.
Lemma lists_iff l c : Forall list_ok l → (∃ a n, lists_mean l (λ _, [], O) (a, n) ∧ map a (seq 0 n) = c) ↔ dec_onf l = Some c.
Proof.
  intros Hl. unfold dec_onf. split.
  - intros (a & n & H & <-). destruct (lists_fwd l Hl _ _ _ agree_empty H) as (xs & -> & A). f_equal. unfold slice_of.
    destruct (fold_left slice_write xs ([], O)) as [b n']. symmetry. exact (agree_places _ _ _ A).
  - destruct (osequence (map dec_procs l)) as [xs|] eqn:E; [|done]. intros [= <-].
    destruct (lists_bwd l Hl xs _ _ agree_empty E) as ([a n] & M & A). exists a, n. split; [done|]. unfold slice_of.
    destruct (fold_left slice_write xs ([], O)) as [b n']. exact (agree_places _ _ _ A).
Qed.
Lemma occ_in n m j : j ∈ occ n m → ∃ k, (k, j) ∈ m.
Proof.
  unfold occ. intros H. apply elem_of_list_fmap in H as ([k j'] & -> & H). apply elem_of_list_filter in H as [_ H]. by exists k.
Qed.
Lemma cfg_iff (fs cfg : cfgmap) : msorted fs →
  (msorted cfg ∧ ∀ k t, (k, t) ∈ cfg ↔ (k, t) ∈ fs ∧ k ≠ "id" ∧ k ≠ "if" ∧ k ≠ "on_failure") ↔
  cfg = mdel "on_failure" (mdel "if" (mdel "id" fs)).
Proof.
  intros Hs. set (d := mdel "on_failure" (mdel "if" (mdel "id" fs))).
  assert (msorted d) as Hd by (by repeat apply msorted_mdel).
  assert (∀ l : cfgmap, msorted l → ∀ k t, (k, t) ∈ l ↔ mget k l = Some t) as Hl.
  { intros l Hl k t. rewrite elem_of_list_In. split; [by apply mget_In|apply mget_Some_In]. }
  assert (∀ k t, (k, t) ∈ d ↔ (k, t) ∈ fs ∧ k ≠ "id" ∧ k ≠ "if" ∧ k ≠ "on_failure") as Hin.
  { intros k t. rewrite !Hl by done. unfold d.
    destruct (decide (k = "on_failure")) as [->|H3]; [rewrite mget_mdel_eq; split; [done|tauto]|]. rewrite mget_mdel_ne by done.
    destruct (decide (k = "if")) as [->|H2]; [rewrite mget_mdel_eq; split; [done|tauto]|]. rewrite mget_mdel_ne by done.
    destruct (decide (k = "id")) as [->|H1]; [rewrite mget_mdel_eq; split; [done|tauto]|]. rewrite mget_mdel_ne by done. tauto. }
  split; [|by intros ->]. intros [Hc H]. apply gomap_ext; [done|done|]. intros k. apply option_eq. intros t.
  rewrite <- !Hl by done. by rewrite H, Hin.
Qed.
Lemma block_iff j : block_ok j.
Proof.
  enough (block_ok j ∧ (jvalid j → list_ok j) ∧ (jvalid j → proc_ok j)) by tauto.
  induction j as [| | | |l IH|m IH] using json_ind'.
  1-4: split; [intros _ c; split; [by inversion 1|]; try done; by intros []|]; split; intros _ ? ?; done.
  - split; [intros _ c; split; [by inversion 1|]; by intros []|]. split; [|done]. intros Hv l' [= <-]. apply jvalid_arr in Hv.
    rewrite Forall_forall in *. intros p Hp. destruct (IH p Hp) as (_ & _ & H). by apply H, Hv.
  - assert (jvalid (JObj m) → proc_ok (JObj m)) as Hproc.
    { intros Hv e [= <-]. apply jvalid_obj in Hv. rewrite Forall_forall in *. intros [k j] Hkj. destruct (IH _ Hkj) as [H _].
      destruct (Hv _ Hkj) as [_ Hj]. by split. }
    split; [|split; [done|exact Hproc]]. intros Hv c. rewrite opt_of_json_obj.
    destruct letters_names as (L1 & L2 & L3 & _).
    assert (Forall list_ok (occ "on_failure" m)) as Hlist.
    { pose proof (proj1 (jvalid_obj m) Hv) as Hv'. rewrite Forall_forall in IH, Hv'. apply Forall_forall. intros j Hj. apply occ_in in Hj as [k Hk].
      destruct (IH _ Hk) as (_ & H & _). apply H. by apply (Hv' _ Hk). }
    split.
    + inversion 1 as [? ids id conds cond onfs a n fs cfg G1 T1 G2 T2 G3 LM Hm Hs Hc]; subst. split; [done|].
      apply given_iff in G1, G2, G3; [|done|done|done]. subst. apply text_field_iff in T1, T2. rewrite T1, T2.
      rewrite (proj1 (lists_iff _ (map a (seq 0 n)) Hlist)) by (by exists a, n).
      apply means_iff in Hm; [|done]. cbn [value_of_json] in Hm. fold (fields_of_json m) in Hm.
      destruct (fields_of_json m) as [raw|]; [|done]. injection Hm as <-. do 2 f_equal. symmetry.
      apply cfg_iff; [apply msorted_mof_list|done].
    + intros [_ H]. destruct (dec_string (occ "id" m) "") as [id|] eqn:E1; [|done]. destruct (dec_string (occ "if" m) "") as [cond|] eqn:E2; [|done].
      destruct (dec_onf (occ "on_failure" m)) as [onf|] eqn:E3; [|done]. destruct (fields_of_json m) as [raw|] eqn:E4; [|done].
      injection H as <-. apply lists_iff in E3 as (a & n & LM & <-); [|done].
      destruct (proj2 (cfg_iff (mof_list raw) _ (msorted_mof_list raw)) eq_refl) as [Hs Hc].
      refine (bm_block m _ id _ cond _ a n (mof_list raw) _ (proj2 (given_iff _ _ _ L1) eq_refl) (proj2 (text_field_iff _ _) E1)
        (proj2 (given_iff _ _ _ L2) eq_refl) (proj2 (text_field_iff _ _) E2) (proj2 (given_iff _ _ _ L3) eq_refl) LM _ Hs Hc).
      apply means_iff; [done|]. cbn [value_of_json]. fold (fields_of_json m). by rewrite E4.
Qed.
Lemma values_ok j : jvalid j → list_ok j.
Proof.
  intros Hv l ->. apply jvalid_arr in Hv. eapply Forall_impl; [exact Hv|]. intros p Hp e ->. apply jvalid_obj in Hp.
  eapply Forall_impl; [exact Hp|]. intros kv [_ H]. split; [apply block_iff|done].
Qed.
Lemma def_iff j c : jvalid j → def_means j c ↔ config_of_json j = Some c.
Proof.
  intros Hv. destruct letters_names as (L1 & _ & L3 & L4 & L5). split.
  - inversion 1 as [|m ids id descs desc ps a n onfs a' n' G1 T1 G2 T2 G3 M3 G4 M4]; subst; [done|].
    apply given_iff in G1, G2, G3, G4; [|done..]. subst. apply text_field_iff in T1, T2. cbn [config_of_json]. rewrite T1, T2.
    assert (∀ n, Forall list_ok (occ n m)) as Hlist.
    { apply jvalid_obj in Hv. rewrite Forall_forall in Hv. intros f. apply Forall_forall. intros j Hj. apply occ_in in Hj as [k Hk].
      apply values_ok. by apply (Hv _ Hk). }
    rewrite (proj1 (lists_iff _ (map a (seq 0 n)) (Hlist _))) by (by exists a, n).
    by rewrite (proj1 (lists_iff _ (map a' (seq 0 n')) (Hlist _))) by (by exists a', n').
  - destruct j as [| | | | |m]; try done; cbn [config_of_json]; [intros [= <-]; constructor|].
    assert (∀ n, Forall list_ok (occ n m)) as Hlist.
    { apply jvalid_obj in Hv. rewrite Forall_forall in Hv. intros f. apply Forall_forall. intros j Hj. apply occ_in in Hj as [k Hk].
      apply values_ok. by apply (Hv _ Hk). }
    destruct (dec_string (occ "id" m) "") as [id|] eqn:E1; [|done]. destruct (dec_string (occ "description" m) "") as [desc|] eqn:E2; [|done].
    destruct (dec_onf (occ "processors" m)) as [procs|] eqn:E3; [|done]. destruct (dec_onf (occ "on_failure" m)) as [onf|] eqn:E4; [|done].
    intros [= <-]. apply lists_iff in E3 as (a & n & LM & <-); [|done]. apply lists_iff in E4 as (a' & n' & LM' & <-); [|done].
    exact (dm_def m _ id _ desc _ a n _ a' n' (proj2 (given_iff _ _ _ L1) eq_refl) (proj2 (text_field_iff _ _) E1)
        (proj2 (given_iff _ _ _ L4) eq_refl) (proj2 (text_field_iff _ _) E2) (proj2 (given_iff _ _ _ L5) eq_refl) LM
        (proj2 (given_iff _ _ _ L3) eq_refl) LM').
Qed.
