(** * Events as JSON text: the two layers together, and facts about arbitrary text. *)
From Verif Require Export JsonText.
From Coq Require Import Lia.
Local Open Scope Z_scope.

(** json.Marshal(evt) (event.go:140-142) and json.Unmarshal(text, evt) (144-151), bytes. *)
Definition MarshalText (fmt : Z → bool * Z * Z) (fuel : nat) (h : heap) (e : event) : Outcome (option (list ascii)) :=
  jbind (MarshalEvent fmt fuel h e) (λ j, jret (render j)).
Definition UnmarshalText (h : heap) (e : event) (text : list ascii) : heap * event * bool :=
  match parse text with None => (h, e, true) | Some j => UnmarshalEvent h e j end.

(** strconv.FormatFloat(f, _, -1, 64) by its contract: the decimal written is read back
    as the same double. *)
Definition float_format (fmt : Z → bool * Z * Z) : Prop :=
  ∀ b, finite64 b = true → let '(neg, m, e) := fmt b in 0 ≤ m ∧ f64_of_dec neg m e = Some b.

(** ** The parser never runs out of fuel *)
Lemma skip_ws_length l : (length (skip_ws l) ≤ length l)%nat.
Proof. induction l as [|c l IH]; simpl; [done|]. destruct (is_ws c); simpl; lia. Qed.
Lemma pcons_some p o s r : pcons p o = Some (s, r) → ∃ s', o = Some (s', r) ∧ s = p ++ s'.
Proof. destruct o as [[s' r']|]; simpl; [|done]. intros [= <- <-]. eauto. Qed.
(** Induction following [parse_str]. *)
Definition ps_ok (R : list ascii → list ascii → list ascii → Prop) : Prop :=
  (∀ l1, R (q :: l1) [] l1) ∧
  (∀ l p l' s r, (length l' < length l)%nat → valid_bytes p → R l' s r → R l (p ++ s) r).
Lemma hex4_range a b c d r : hex4 a b c d = Some r → 0 ≤ r < 0x10000.
Proof.
  assert (∀ c v, hexval c = Some v → 0 ≤ v < 16) as Hv.
  { intros x v. unfold hexval.
    destruct (inr 48 57 x) eqn:E1; [intros [= <-]; apply inr_spec in E1; lia|].
    destruct (inr 97 102 x) eqn:E2; [intros [= <-]; apply inr_spec in E2; lia|].
    destruct (inr 65 70 x) eqn:E3; [intros [= <-]; apply inr_spec in E3; lia|done]. }
  unfold hex4. destruct (hexval a) eqn:Ea; [|done]. destruct (hexval b) eqn:Eb; [|done].
  destruct (hexval c) eqn:Ec; [|done]. destruct (hexval d) eqn:Ed; [|done]. intros [= <-].
  apply Hv in Ea, Eb, Ec, Ed. lia.
Qed.
Lemma valid_encode c : scalar c → valid_bytes (utf8_encode c).
Proof. intros H. exists [c]. split; [by constructor|]. simpl. by rewrite app_nil_r. Qed.
Lemma valid_runeError : valid_bytes runeError.
Proof. rewrite <- runeError_enc. apply valid_encode. right. lia. Qed.
Lemma parse_str_ind R : ps_ok R → ∀ l s r, parse_str l = Some (s, r) → R l s r.
Proof.
  intros [R1 R2] l. remember (length l) as n eqn:Hn. revert l Hn. induction (lt_wf n) as [n _ IH]. intros l -> s r.
  assert (∀ p l', (length l' < length l)%nat → valid_bytes p → pcons p (parse_str l') = Some (s, r) → R l s r) as Step.
  { intros p l' Hl Hp H. apply pcons_some in H as (s' & H & ->). eapply R2; [exact Hl|done|]. exact (IH _ Hl _ eq_refl _ _ H). }
  clear IH R2. destruct l as [|c l1]; [done|]. cbn [parse_str].
  destruct (Ascii.eqb_spec c q) as [->|Hq]; [intros [= <- <-]; apply R1|].
  destruct (Ascii.eqb_spec c bs) as [->|Hb].
  { destruct l1 as [|d l2]; [done|]. destruct (simple_escape d) as [x|] eqn:Es.
    - apply Step; [simpl; lia|]. apply ascii_valid. constructor; [|constructor]. unfold simple_escape in Es.
      repeat match type of Es with (if ?b then _ else _) = _ => destruct b; [injection Es as <-; vm_compute; done|] end. done.
    - destruct (Ascii.eqb d "u"%char); [|done].
      destruct l2 as [|h1 [|h2 [|h3 [|h4 l3]]]]; try done.
      destruct (hex4 h1 h2 h3 h4) as [u|] eqn:Eu; [|done]. apply hex4_range in Eu.
      destruct ((0xD800 <=? u) && (u <? 0xE000)) eqn:Esu.
      + assert (pcons runeError (parse_str l3) = Some (s, r) → R (bs :: d :: h1 :: h2 :: h3 :: h4 :: l3) s r) as Hbad.
        { apply Step; [simpl; lia|apply valid_runeError]. }
        destruct l3 as [|c1 [|c2 [|g1 [|g2 [|g3 [|g4 l4]]]]]]; try exact Hbad.
        destruct (Ascii.eqb c1 bs && Ascii.eqb c2 "u"%char); [|exact Hbad]. destruct (hex4 g1 g2 g3 g4) as [u2|] eqn:Eu2; [|exact Hbad].
        destruct ((u <? 0xDC00) && (0xDC00 <=? u2) && (u2 <? 0xE000)) eqn:Ep; [|exact Hbad].
        rewrite !andb_true_iff, ?Z.leb_le, ?Z.ltb_lt in Esu, Ep.
        apply Step; [simpl; lia|]. apply valid_encode. right. lia.
      + apply Step; [simpl; lia|]. apply valid_encode. unfold scalar.
        rewrite andb_false_iff, Z.leb_gt, Z.ltb_ge in Esu. lia. }
  destruct (bz c <? 32); [done|]. destruct (utf8_1 c) eqn:E1.
  { apply Step; [simpl; lia|]. destruct (utf8_1_enc _ E1) as (x & Hx & <-). by apply valid_encode. }
  assert (pcons runeError (parse_str l1) = Some (s, r) → R (c :: l1) s r) as Hbad.
  { apply Step; [simpl; lia|apply valid_runeError]. }
  destruct l1 as [|b1 l2]; [exact Hbad|]. destruct (utf8_2 c b1) eqn:E2.
  { apply Step; [simpl; lia|]. destruct (utf8_2_enc _ _ E2) as (x & Hx & <-). by apply valid_encode. }
  destruct l2 as [|b2 l3]; [exact Hbad|]. destruct (utf8_3 c b1 b2) eqn:E3.
  { apply Step; [simpl; lia|]. destruct (utf8_3_enc _ _ _ E3) as (x & Hx & <-). by apply valid_encode. }
  destruct l3 as [|b3 l4]; [exact Hbad|]. destruct (utf8_4 c b1 b2 b3) eqn:E4; [|exact Hbad].
  apply Step; [simpl; lia|]. destruct (utf8_4_enc _ _ _ _ E4) as (x & Hx & <-). by apply valid_encode.
Qed.
Lemma valid_app a b : valid_bytes a → valid_bytes b → valid_bytes (a ++ b).
Proof.
  intros (cs & H1 & ->) (ds & H2 & ->). exists (cs ++ ds). split; [by apply Forall_app|]. by rewrite flat_map_app.
Qed.
Lemma parse_str_facts l s r : parse_str l = Some (s, r) → (length r < length l)%nat ∧ valid_bytes s.
Proof.
  apply (parse_str_ind (λ l s r, (length r < length l)%nat ∧ valid_bytes s)). split.
  - intros l1. split; [simpl; lia|]. by exists [].
  - intros l0 p l' s0 r0 Hl Hp [H1 H2]. split; [lia|by apply valid_app].
Qed.

Lemma span_digits_facts l ds r : span_digits l = (ds, r) → (length r ≤ length l)%nat ∧ all_digits ds.
Proof.
  revert ds r. induction l as [|c l IH]; intros ds r; simpl; [intros [= <- <-]; split; [done|constructor]|].
  destruct (is_digit c) eqn:E; [|intros [= <- <-]; split; [done|constructor]].
  destruct (span_digits l) as [d r'] eqn:Es. intros [= <- <-]. destruct (IH _ _ eq_refl) as [H1 H2].
  split; [lia|]. by constructor.
Qed.
Lemma decimal_value_nonneg l : all_digits l → 0 ≤ decimal_value l.
Proof. intros H. apply all_digits_value, decimal_value_bound in H. lia. Qed.
Lemma parse_num_facts l j r : parse_num l = Some (j, r) → (length r ≤ length l)%nat ∧ ∃ neg m e, j = JNum neg m e ∧ 0 ≤ m.
Proof.
  unfold parse_num. intros H.
  destruct (match l with c :: l1 => if Ascii.eqb c "-"%char then (true, l1) else (false, l) | [] => (false, []) end) as [neg l1] eqn:E0.
  assert (length l1 ≤ length l)%nat as H0.
  { destruct l as [|c t]; [by simplify_eq|]. destruct (Ascii.eqb c _); simplify_eq; simpl; lia. }
  clear E0. destruct (parse_int l1) as [[ds l2]|] eqn:E1; [|done].
  assert ((length l2 ≤ length l1)%nat ∧ all_digits ds) as [L1 D1].
  { unfold parse_int in E1. destruct l1 as [|c t]; [done|]. destruct (Ascii.eqb_spec c "0"%char) as [->|].
    - simplify_eq. split; [simpl; lia|]. by repeat constructor.
    - destruct (span_digits (c :: t)) as [d r'] eqn:Es. apply span_digits_facts in Es as [? ?]. by destruct d; simplify_eq. }
  destruct (parse_frac l2) as [[fs l3]|] eqn:E2; [|done].
  assert ((length l3 ≤ length l2)%nat ∧ all_digits fs) as [L2 D2].
  { unfold parse_frac in E2. destruct l2 as [|c t]; [simplify_eq; split; [done|constructor]|]. destruct (Ascii.eqb _ _).
    - destruct (span_digits t) as [d r'] eqn:Es. apply span_digits_facts in Es as [? ?]. destruct d; simplify_eq.
      split; [simpl in *; lia|done].
    - simplify_eq. split; [done|constructor]. }
  destruct (parse_exp l3) as [[x l4]|] eqn:E3; [|done].
  assert (length l4 ≤ length l3)%nat as L3.
  { unfold parse_exp in E3. destruct l3 as [|c t]; [by simplify_eq|]. destruct (_ || _); [|by simplify_eq].
    destruct (match t with d :: l2 => if Ascii.eqb d "-"%char then (-1, l2) else if Ascii.eqb d "+"%char then (1, l2) else (1, t) | [] => (1, []) end) as [sg t2] eqn:Et.
    assert (length t2 ≤ length t)%nat.
    { destruct t as [|d t']; [by simplify_eq|]. destruct (Ascii.eqb d _); [simplify_eq; simpl; lia|]. destruct (Ascii.eqb d _); simplify_eq; simpl; lia. }
    destruct (span_digits t2) as [d r'] eqn:Es. apply span_digits_facts in Es as [? _]. destruct d; simplify_eq. simpl. lia. }
  simplify_eq. split; [lia|]. eexists _, _, _. split; [reflexivity|]. apply decimal_value_nonneg. by apply Forall_app.
Qed.
Lemma expect_length w : ∀ l r, expect w l = Some r → (length r ≤ length l)%nat.
Proof.
  induction w as [|c w IH]; intros l r; simpl; [by intros [= <-]|]. destruct l as [|d l]; [done|].
  destruct (Ascii.eqb c d); [|done]. intros H. apply IH in H. simpl. lia.
Qed.

(** All strings are valid UTF-8, mantissas not negative. *)
Fixpoint jvalid (j : json) : Prop :=
  match j with
  | JNum _ m _ => 0 ≤ m
  | JStr s => valid_utf8 s
  | JArr l => (fix go l := match l with [] => True | j :: l' => jvalid j ∧ go l' end) l
  | JObj m => (fix go (m : list (string * json)) := match m with [] => True | (k, j) :: m' => (valid_utf8 k ∧ jvalid j) ∧ go m' end) m
  | _ => True
  end.
Lemma jvalid_arr l : jvalid (JArr l) ↔ Forall jvalid l.
Proof. simpl. induction l as [|t l IH]; [by split|]. rewrite Forall_cons, IH. done. Qed.
Lemma jvalid_obj m : jvalid (JObj m) ↔ Forall (λ kv, valid_utf8 kv.1 ∧ jvalid kv.2) m.
Proof. simpl. induction m as [|[k t] m IH]; [by split|]. rewrite Forall_cons, IH. done. Qed.
Lemma valid_string s : valid_bytes s → valid_utf8 (string_of_list_ascii s).
Proof. intros H. unfold valid_utf8. by rewrite list_ascii_of_string_of_list_ascii. Qed.

Lemma parse_facts n :
  (∀ l j r, pvalue n l = Some (j, r) → (length r ≤ length l)%nat ∧ jvalid j) ∧
  (∀ l js r, pelems n l = Some (js, r) → (length r ≤ length l)%nat ∧ Forall jvalid js) ∧
  (∀ l ms r, pmembers n l = Some (ms, r) → (length r ≤ length l)%nat ∧ Forall (λ kv, valid_utf8 kv.1 ∧ jvalid kv.2) ms).
Proof.
  induction n as [|n (IHv & IHe & IHm)]; [done|]. split_and!.
  - intros l j r. cbn [pvalue]. pose proof (skip_ws_length l) as Hw. destruct (skip_ws l) as [|c l1]; [done|].
    destruct (Ascii.eqb c q).
    { destruct (parse_str l1) as [[s r']|] eqn:E; [|done]. intros [= <- <-]. apply parse_str_facts in E as [? ?].
      split; [simpl in *; lia|by apply valid_string]. }
    destruct (Ascii.eqb c "["%char).
    { pose proof (skip_ws_length l1) as Hw1. destruct (skip_ws l1) as [|c' r'] eqn:E1; [done|]. destruct (Ascii.eqb c' "]"%char).
      - intros [= <- <-]. split; [simpl in *; lia|done].
      - destruct (pelems n l1) as [[js r'']|] eqn:E; [|done]. intros [= <- <-]. apply IHe in E as [? ?].
        split; [simpl in *; lia|by apply jvalid_arr]. }
    destruct (Ascii.eqb c "{"%char).
    { pose proof (skip_ws_length l1) as Hw1. destruct (skip_ws l1) as [|c' r'] eqn:E1; [done|]. destruct (Ascii.eqb c' "}"%char).
      - intros [= <- <-]. split; [simpl in *; lia|done].
      - destruct (pmembers n l1) as [[js r'']|] eqn:E; [|done]. intros [= <- <-]. apply IHm in E as [? ?].
        split; [simpl in *; lia|by apply jvalid_obj]. }
    destruct (Ascii.eqb c "n"%char).
    { unfold parse_lit. destruct (expect _ l1) eqn:E; [|done]. intros [= <- <-]. apply expect_length in E. split; [simpl in *; lia|done]. }
    destruct (Ascii.eqb c "t"%char).
    { unfold parse_lit. destruct (expect _ l1) eqn:E; [|done]. intros [= <- <-]. apply expect_length in E. split; [simpl in *; lia|done]. }
    destruct (Ascii.eqb c "f"%char).
    { unfold parse_lit. destruct (expect _ l1) eqn:E; [|done]. intros [= <- <-]. apply expect_length in E. split; [simpl in *; lia|done]. }
    intros H. apply parse_num_facts in H as (? & neg & m & e & -> & ?). split; [lia|done].
  - intros l js r. cbn [pelems]. destruct (pvalue n l) as [[j r1]|] eqn:E; [|done]. apply IHv in E as [L1 V1].
    pose proof (skip_ws_length r1) as Hw. destruct (skip_ws r1) as [|c r']; [done|]. destruct (Ascii.eqb c ","%char).
    + destruct (pelems n r') as [[js' r'']|] eqn:E2; [|done]. intros [= <- <-]. apply IHe in E2 as [L2 V2].
      split; [simpl in *; lia|by constructor].
    + destruct (Ascii.eqb c "]"%char); [|done]. intros [= <- <-]. split; [simpl in *; lia|by repeat constructor].
  - intros l ms r. cbn [pmembers]. pose proof (skip_ws_length l) as Hw0. destruct (skip_ws l) as [|c0 l0]; [done|].
    destruct (Ascii.eqb c0 q); [|done]. destruct (parse_str l0) as [[s r0]|] eqn:Es; [|done]. apply parse_str_facts in Es as [Ls Vs].
    pose proof (skip_ws_length r0) as Hw1. destruct (skip_ws r0) as [|c1 r1]; [done|]. destruct (Ascii.eqb c1 ":"%char); [|done].
    destruct (pvalue n r1) as [[j r2]|] eqn:E; [|done]. apply IHv in E as [L1 V1].
    pose proof (skip_ws_length r2) as Hw. destruct (skip_ws r2) as [|c r']; [done|]. apply valid_string in Vs.
    destruct (Ascii.eqb c ","%char).
    + destruct (pmembers n r') as [[js' r'']|] eqn:E2; [|done]. intros [= <- <-]. apply IHm in E2 as [L2 V2].
      split; [simpl in *; lia|by constructor].
    + destruct (Ascii.eqb c "}"%char); [|done]. intros [= <- <-]. split; [simpl in *; lia|by repeat constructor].
Qed.
(** With at least the fuel [parse] uses, more makes no difference. *)
Lemma parse_fuel n :
  (∀ l, (2 * length l < n)%nat → ∀ k, (n ≤ k)%nat → pvalue k l = pvalue n l) ∧
  (∀ l, (2 * length l + 1 < n)%nat → ∀ k, (n ≤ k)%nat → pelems k l = pelems n l) ∧
  (∀ l, (2 * length l + 1 < n)%nat → ∀ k, (n ≤ k)%nat → pmembers k l = pmembers n l).
Proof.
  induction n as [|n (IHv & IHe & IHm)]; [split_and!; intros; lia|]. split_and!; intros l Hl [|k] Hk; try lia.
  - cbn [pvalue]. pose proof (skip_ws_length l) as Hw. destruct (skip_ws l) as [|c l1]; [done|].
    destruct (Ascii.eqb c q); [done|]. simpl in Hw. rewrite (IHe l1) by lia. rewrite (IHm l1) by lia. done.
  - cbn [pelems]. rewrite (IHv l) by lia. destruct (pvalue n l) as [[j r1]|] eqn:E; [|done].
    apply (proj1 (parse_facts n)) in E as [L1 _]. pose proof (skip_ws_length r1) as Hw.
    destruct (skip_ws r1) as [|c r']; [done|]. simpl in Hw. rewrite (IHe r') by lia. done.
  - cbn [pmembers]. pose proof (skip_ws_length l) as Hw0. destruct (skip_ws l) as [|c0 l0]; [done|].
    destruct (Ascii.eqb c0 q); [|done]. destruct (parse_str l0) as [[s r0]|] eqn:Es; [|done]. apply parse_str_facts in Es as [Ls Vs].
    pose proof (skip_ws_length r0) as Hw1. destruct (skip_ws r0) as [|c1 r1]; [done|]. destruct (Ascii.eqb c1 ":"%char); [|done].
    simpl in Hw0, Hw1. rewrite (IHv r1) by lia.
    destruct (pvalue n r1) as [[j r2]|] eqn:E; [|done]. apply (proj1 (parse_facts n)) in E as [L1 _].
    pose proof (skip_ws_length r2) as Hw. destruct (skip_ws r2) as [|c r']; [done|]. simpl in Hw. rewrite (IHm r') by lia. done.
Qed.

(** ** What can be decoded from text *)
Lemma f64_of_ratio_bits n d b : 0 ≤ n → 0 < d → f64_of_ratio n d = Some b → 0 ≤ b < 2047 * 2 ^ 52.
Proof.
  intros Hn Hd. unfold f64_of_ratio. destruct (n =? 0); [intros [= <-]; rewrite p52; lia|].
  set (e := Z.max _ _). set (k := if 0 <=? e then _ else _).
  assert (0 ≤ k) as Hk.
  { unfold k. destruct (Z.leb_spec 0 e).
    - apply round_even_nonneg; [|done]. pose proof (pow2_pos e ltac:(lia)). nia.
    - apply round_even_nonneg; [done|]. pose proof (pow2_pos (- e) ltac:(lia)). nia. }
  destruct (Z.ltb_spec ((e + 1074) * 2 ^ 52 + k) (2047 * 2 ^ 52)); [|done]. intros [= <-]. split; [|done].
  assert (0 ≤ e + 1074) by (unfold e; lia). rewrite p52 in *. lia.
Qed.
Lemma f64_of_dec_finite neg m e b : 0 ≤ m → f64_of_dec neg m e = Some b → finite64 b = true.
Proof.
  intros Hm. unfold f64_of_dec.
  destruct (if 0 <=? e then f64_of_ratio (m * 10 ^ e) 1 else f64_of_ratio m (10 ^ (- e))) as [c|] eqn:E; [|done].
  intros [= <-]. assert (0 ≤ c < 2047 * 2 ^ 52) as Hc.
  { destruct (Z.leb_spec 0 e).
    - apply (f64_of_ratio_bits (m * 10 ^ e) 1 c); [|lia|exact E]. pose proof (Z.pow_pos_nonneg 10 e ltac:(lia) ltac:(lia)). nia.
    - apply (f64_of_ratio_bits m (10 ^ (- e)) c); [done| |exact E]. apply Z.pow_pos_nonneg; lia. }
  by destruct (sign_bits c neg Hc).
Qed.
Lemma tdepth_sub_arr ts n : Forall (λ t, tdepth t ≤ n) ts → 0 ≤ n → tdepth (TArr ts) ≤ 1 + n.
Proof. intros H Hn. simpl. induction H as [|t l Ht Hl IH]; simpl; lia. Qed.
Lemma tdepth_sub_obj (m : gomap tree) n : Forall (λ kv, tdepth kv.2 ≤ n) m → 0 ≤ n → tdepth (TObj m) ≤ 1 + n.
Proof. intros H Hn. simpl. induction H as [|[k t] l Ht Hl IH]; simpl in *; lia. Qed.
Lemma decoded_stable j : jvalid j → ∀ t, value_of_json j = Some t → json_stable t ∧ tdepth t ≤ jdepth j.
Proof.
  induction j as [|b|neg m e|s|l IH|m IH] using json_ind'; intros Hv t H; simpl in H.
  - simplify_eq. simpl. split; [done|lia].
  - simplify_eq. simpl. split; [done|lia].
  - destruct (f64_of_dec neg m e) as [b|] eqn:E; [|done]. simplify_eq. simpl. split; [|lia]. by eapply f64_of_dec_finite.
  - simplify_eq. simpl. split; [done|lia].
  - apply jvalid_arr in Hv. destruct (osequence (map value_of_json l)) as [ts|] eqn:E; [|done]. simplify_eq.
    apply osequence_Forall2 in E.
    assert (∀ t, t ∈ ts → ∃ j, j ∈ l ∧ value_of_json j = Some t) as Hin.
    { intros t Ht. assert (Some t ∈ map value_of_json l) as Hx by (rewrite E; by apply elem_of_list_fmap_1).
      apply elem_of_list_fmap in Hx as (j & Hj & Hjl). eauto. }
    rewrite Forall_forall in IH, Hv. rewrite json_stable_arr, Forall_forall. split.
    + intros t Ht. destruct (Hin t Ht) as (j & Hj & Ej). by destruct (IH j Hj (Hv j Hj) t Ej).
    + cbn [jdepth]. apply tdepth_sub_arr.
      * apply Forall_forall. intros t Ht. destruct (Hin t Ht) as (j & Hj & Ej).
        destruct (IH j Hj (Hv j Hj) t Ej) as [_ Hd]. etransitivity; [exact Hd|]. clear -Hj.
        induction l as [|j' l IHl]; [by apply elem_of_nil in Hj|]. simpl. apply elem_of_cons in Hj as [->|Hj]; [lia|]. specialize (IHl Hj). lia.
      * clear. induction l; simpl; lia.
  - apply jvalid_obj in Hv. match type of H with match osequence ?x with _ => _ end = _ => destruct (osequence x) as [ts|] eqn:E end; [|done]. simplify_eq.
    apply osequence_Forall2 in E.
    assert (∀ kt, kt ∈ mof_list ts → ∃ j, (kt.1, j) ∈ m ∧ value_of_json j = Some kt.2) as Hin.
    { intros [k t] Ht. apply elem_of_list_In, mof_list_in, elem_of_list_In in Ht.
      assert (Some (k, t) ∈ map Some ts) as Hx by (by apply elem_of_list_fmap_1). rewrite <- E in Hx.
      apply elem_of_list_fmap in Hx as ([k' j] & Hj & Hjl). destruct (value_of_json j) as [t'|] eqn:Ej; simplify_eq. eauto. }
    rewrite Forall_forall in IH, Hv. rewrite json_stable_obj, Forall_forall. split.
    + intros kt Ht. destruct (Hin kt Ht) as (j & Hj & Ej). destruct (Hv _ Hj) as [Hk Hvj].
      split; [done|]. by destruct (IH _ Hj Hvj _ Ej).
    + cbn [jdepth]. apply tdepth_sub_obj.
      * apply Forall_forall. intros kt Ht. destruct (Hin kt Ht) as (j & Hj & Ej). destruct (Hv _ Hj) as [Hk Hvj].
        destruct (IH _ Hj Hvj _ Ej) as [_ Hd]. etransitivity; [exact Hd|]. clear -Hj.
        induction m as [|[k' j'] l IHl]; [by apply elem_of_nil in Hj|]. apply elem_of_cons in Hj as [Hj|Hj]; [simplify_eq; simpl; lia|]. specialize (IHl Hj). cbn [fold_right]. etransitivity; [exact IHl|]. apply Z.le_max_r.
      * clear. induction m; simpl; lia.
Qed.
Lemma json_stable_jsonable t : json_stable t → jsonable t.
Proof.
  induction t as [| |b|z|z|b|s|z| |l IH| |m IH] using tree_ind'; try done.
  - rewrite json_stable_arr, jsonable_arr, !Forall_forall. rewrite Forall_forall in IH. eauto.
  - rewrite json_stable_obj, jsonable_obj, !Forall_forall. rewrite Forall_forall in IH. intros H kv Hkv. apply IH; [done|]. by apply H.
Qed.
Lemma jwf_of_tree fmt t : float_format fmt → ∀ j, json_of_tree fmt t = Some j → jwf j.
Proof.
  intros Hf. induction t as [| |b|z|z|b|s|z| |l IH| |m IH] using tree_ind'; intros j H; simpl in H; try (by simplify_eq).
  - simplify_eq. simpl. lia.
  - simplify_eq. simpl. lia.
  - destruct (finite64 b) eqn:E; [|done]. simplify_eq. specialize (Hf b E). unfold jfloat. destruct (fmt b) as [[neg m] e]. apply Hf.
  - destruct (osequence (map (json_of_tree fmt) l)) as [js|] eqn:E; [|done]. simplify_eq. apply osequence_Forall2 in E.
    apply jwf_arr, Forall_forall. intros j Hj. assert (Some j ∈ map (json_of_tree fmt) l) as Hx by (rewrite E; by apply elem_of_list_fmap_1).
    apply elem_of_list_fmap in Hx as (t & Ht & Htl). rewrite Forall_forall in IH. by eapply IH.
  - match type of H with match osequence ?x with _ => _ end = _ => destruct (osequence x) as [js|] eqn:E end; [|done]. simplify_eq.
    apply osequence_Forall2 in E. apply jwf_obj, Forall_forall. intros [k j] Hj.
    assert (Some (k, j) ∈ map Some js) as Hx by (by apply elem_of_list_fmap_1). rewrite <- E in Hx.
    apply elem_of_list_fmap in Hx as ([k' t] & Ht & Htl). destruct (json_of_tree fmt t) as [j'|] eqn:Ej; simplify_eq.
    rewrite Forall_forall in IH. apply (IH _ Htl _ Ej).
Qed.
Lemma float_format_ok fmt : float_format fmt → fmt_ok fmt.
Proof. intros H b Hb. specialize (H b Hb). destruct (fmt b) as [[neg m] e]. apply H. Qed.
Lemma exact_decimal_format : float_format exact_decimal.
Proof. intros b Hb. exact (exact_decimal_ok b Hb). Qed.
