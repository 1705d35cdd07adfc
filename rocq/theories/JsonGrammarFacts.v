(** * The reader accepts exactly the JSON texts. *)
From Verif Require Export JsonGrammarStr.
From Coq Require Import Lia.
Local Open Scope Z_scope.

(** ** Soundness *)
Lemma expect_sound w : ∀ l r, expect w l = Some r → l = w ++ r.
Proof.
  induction w as [|c w IH]; intros [|d l] r; simpl; [by intros [= <-]|by intros [= <-]|done|].
  destruct (Ascii.eqb_spec c d) as [->|]; [|done]. intros H. f_equal. by apply IH.
Qed.
Lemma parse_lit_sound w l j j' r : parse_lit w l j = Some (j', r) → l = w ++ r ∧ j' = j.
Proof. unfold parse_lit. destruct (expect w l) eqn:E; [|done]. intros [= <- <-]. apply expect_sound in E. done. Qed.
Lemma parse_quoted l s r : parse_str l = Some (s, r) → ∃ raw, q :: l = raw ++ r ∧ quoted raw (string_of_list_ascii s).
Proof.
  intros H. apply parse_str_sound in H as (inner & -> & Hc). exists (chars """" ++ inner ++ chars """"). split.
  - change (chars """") with [q]. simpl. by rewrite <- app_assoc.
  - exists inner. split; [done|]. by rewrite list_ascii_of_string_of_list_ascii.
Qed.
Lemma parse_sound n :
  (∀ l j r, pvalue n l = Some (j, r) → ∃ w raw, l = w ++ raw ++ r ∧ blanks w ∧ text_of raw j) ∧
  (∀ l js r, pelems n l = Some (js, r) → ∃ raw, l = raw ++ chars "]" ++ r ∧ items raw js) ∧
  (∀ l ms r, pmembers n l = Some (ms, r) → ∃ raw, l = raw ++ chars "}" ++ r ∧ members raw ms).
Proof.
  induction n as [|n (IHv & IHe & IHm)]; [done|]. split_and!.
  - intros l j r. cbn [pvalue]. destruct (skip_ws_sound l) as (w & Hl & Hw). destruct (skip_ws l) as [|c l1]; [done|].
    rewrite Hl. intros H. exists w.
    cut (∃ raw, c :: l1 = raw ++ r ∧ text_of raw j). { intros (raw & Hraw & Ht). exists raw. rewrite Hraw. done. }
    clear Hl Hw. destruct (Ascii.eqb_spec c q) as [->|_].
    { destruct (parse_str l1) as [[s r']|] eqn:E; [|done]. injection H as <- <-. apply parse_quoted in E as (raw & E & Hq).
      exists raw. split; [done|by constructor]. }
    destruct (Ascii.eqb_spec c "["%char) as [->|_].
    { destruct (skip_ws_sound l1) as (w1 & Hl1 & Hw1). destruct (skip_ws l1) as [|c' r']; [done|].
      destruct (Ascii.eqb_spec c' "]"%char) as [->|_].
      - injection H as <- <-. exists (chars "[" ++ w1 ++ chars "]"). split; [|by apply t_arr0].
        rewrite Hl1. simpl. by rewrite <- app_assoc.
      - destruct (pelems n l1) as [[js r'']|] eqn:E; [|done]. injection H as <- <-. apply IHe in E as (raw & -> & E).
        exists (chars "[" ++ raw ++ chars "]"). split; [|by apply t_arr]. simpl. by rewrite <- app_assoc. }
    destruct (Ascii.eqb_spec c "{"%char) as [->|_].
    { destruct (skip_ws_sound l1) as (w1 & Hl1 & Hw1). destruct (skip_ws l1) as [|c' r']; [done|].
      destruct (Ascii.eqb_spec c' "}"%char) as [->|_].
      - injection H as <- <-. exists (chars "{" ++ w1 ++ chars "}"). split; [|by apply t_obj0].
        rewrite Hl1. simpl. by rewrite <- app_assoc.
      - destruct (pmembers n l1) as [[js r'']|] eqn:E; [|done]. injection H as <- <-. apply IHm in E as (raw & -> & E).
        exists (chars "{" ++ raw ++ chars "}"). split; [|by apply t_obj]. simpl. by rewrite <- app_assoc. }
    destruct (Ascii.eqb_spec c "n"%char) as [->|_].
    { apply parse_lit_sound in H as [-> ->]. exists (chars "null"). split; [done|constructor]. }
    destruct (Ascii.eqb_spec c "t"%char) as [->|_].
    { apply parse_lit_sound in H as [-> ->]. exists (chars "true"). split; [done|constructor]. }
    destruct (Ascii.eqb_spec c "f"%char) as [->|_].
    { apply parse_lit_sound in H as [-> ->]. exists (chars "false"). split; [done|constructor]. }
    apply parse_num_sound in H as (raw & neg & m & e & -> & -> & H). exists raw. split; [done|by constructor].
  - intros l js r. cbn [pelems]. destruct (pvalue n l) as [[j r1]|] eqn:E; [|done]. apply IHv in E as (w & raw & -> & Hw & Ht).
    destruct (skip_ws_sound r1) as (w2 & Ew2 & Hw2). destruct (skip_ws r1) as [|c r']; [done|].
    destruct (Ascii.eqb_spec c ","%char) as [->|_].
    + destruct (pelems n r') as [[js' r'']|] eqn:E2; [|done]. intros [= <- <-]. apply IHe in E2 as (raw2 & -> & E2).
      exists (w ++ raw ++ w2 ++ chars "," ++ raw2). split; [subst; rewrite ?Ename; by rewrite <- !app_assoc|by constructor].
    + destruct (Ascii.eqb_spec c "]"%char) as [->|_]; [|done]. intros [= <- <-]. exists (w ++ raw ++ w2).
      split; [subst; rewrite ?Ename; by rewrite <- !app_assoc|by constructor].
  - intros l ms r. cbn [pmembers]. destruct (skip_ws_sound l) as (w1 & Ew1 & Hw1). destruct (skip_ws l) as [|c0 l0]; [done|].
    destruct (Ascii.eqb_spec c0 q) as [->|_]; [|done]. destruct (parse_str l0) as [[s r0]|] eqn:Es; [|done].
    apply parse_quoted in Es as (name & Ename & Hname).
    destruct (skip_ws_sound r0) as (w2 & Ew2 & Hw2). destruct (skip_ws r0) as [|c1 r1]; [done|].
    destruct (Ascii.eqb_spec c1 ":"%char) as [->|_]; [|done].
    destruct (pvalue n r1) as [[j r2]|] eqn:E; [|done]. apply IHv in E as (w3 & raw & -> & Hw3 & Ht).
    destruct (skip_ws_sound r2) as (w4 & Ew4 & Hw4). destruct (skip_ws r2) as [|c r']; [done|].
    destruct (Ascii.eqb_spec c ","%char) as [->|_].
    + destruct (pmembers n r') as [[js' r'']|] eqn:E2; [|done]. intros [= <- <-]. apply IHm in E2 as (raw2 & -> & E2).
      exists (w1 ++ name ++ w2 ++ chars ":" ++ w3 ++ raw ++ w4 ++ chars "," ++ raw2). split; [subst; rewrite ?Ename; by rewrite <- !app_assoc|by constructor].
    + destruct (Ascii.eqb_spec c "}"%char) as [->|_]; [|done]. intros [= <- <-].
      exists (w1 ++ name ++ w2 ++ chars ":" ++ w3 ++ raw ++ w4). split; [subst; rewrite ?Ename; by rewrite <- !app_assoc|by constructor].
Qed.

(** ** Completeness *)
Lemma expect_complete w r : expect w (w ++ r) = Some r.
Proof. induction w as [|c w IH]; [done|]. simpl. by rewrite Ascii.eqb_refl. Qed.
Lemma quoted_complete raw s rest : quoted raw s → ∃ l, raw ++ rest = q :: l ∧ parse_str l = Some (list_ascii_of_string s, rest).
Proof.
  intros (inner & -> & Hc). exists (inner ++ q :: rest). split; [|by apply parse_str_complete].
  change (chars """") with [q]. simpl. by rewrite <- app_assoc.
Qed.
(** The first character of a value. *)
Definition starts (c : ascii) : Prop := is_ws c = false ∧ c ≠ "]"%char ∧ c ≠ "}"%char.
Lemma numeral_head raw neg m e : numeral raw neg m e → ∃ c l, raw = c :: l ∧ (c = "-"%char ∨ is_digit c = true).
Proof.
  intros (int & frac & fds & exp & x & -> & Hi & _). destruct neg.
  - eexists _, _. split; [reflexivity|by left].
  - destruct Hi as [-> | (c & l' & -> & Hc & _)].
    + eexists _, _. split; [reflexivity|by right].
    + eexists _, _. split; [reflexivity|right]. unfold is_digit. apply inr_spec. lia.
Qed.
Lemma text_head raw j : text_of raw j → ∃ c l, raw = c :: l ∧ starts c.
Proof.
  intros H. inversion H; subst; try (eexists _, _; split; [reflexivity|by split_and!]).
  - apply numeral_head in H0 as (c & l & -> & Hc). exists c, l. split; [done|]. destruct Hc as [-> | Hc]; [by split_and!|].
    split_and!; [by apply digit_not_ws| |]; intros ->; done.
  - destruct H0 as (inner & -> & _). eexists _, _. split; [reflexivity|by split_and!].
Qed.
Lemma starts_no_ws raw j rest : text_of raw j → no_ws (raw ++ rest).
Proof. intros H. apply text_head in H as (c & l & -> & Hc & _). exact Hc. Qed.
Lemma blank_num_end w r : blanks w → num_end r → num_end (w ++ r).
Proof.
  intros Hw Hr. destruct Hw as [|c w Hc Hw]; [done|]. apply blank_ws in Hc. simpl.
  destruct (is_digit c) eqn:E; [by rewrite digit_not_ws in Hc|]. split_and!; [done|intros ->; done..].
Qed.
Lemma items_head raw l : items raw l → ∃ w c raw', raw = w ++ c :: raw' ∧ blanks w ∧ starts c.
Proof.
  intros H. inversion H; subst.
  - apply text_head in H1 as (c & l' & -> & Hc). exists w1, c, (l' ++ w2). split; [by simplify_list_eq|done].
  - apply text_head in H1 as (c & l' & -> & Hc). eexists w1, c, _. split; [|done]. by simplify_list_eq.
Qed.
Lemma members_head raw l : members raw l → ∃ w raw', raw = w ++ q :: raw' ∧ blanks w.
Proof.
  intros H. inversion H; subst.
  - destruct H1 as (inner & -> & _). exists w1. eexists. split; [|done]. by simplify_list_eq.
  - destruct H1 as (inner & -> & _). exists w1. eexists. split; [|done]. by simplify_list_eq.
Qed.
Lemma parse_complete :
  (∀ raw j, text_of raw j → ∃ n0, ∀ n w rest, (n0 ≤ n)%nat → blanks w → num_end rest →
     pvalue n (w ++ raw ++ rest) = Some (j, rest)) ∧
  (∀ raw l, items raw l → ∃ n0, ∀ n rest, (n0 ≤ n)%nat → pelems n (raw ++ "]"%char :: rest) = Some (l, rest)) ∧
  (∀ raw m, members raw m → ∃ n0, ∀ n rest, (n0 ≤ n)%nat → pmembers n (raw ++ "}"%char :: rest) = Some (m, rest)).
Proof.
  apply text_mutind.
  - exists 1%nat. intros [|n] w rest Hn Hw Hr; [lia|]. cbn [pvalue]. rewrite skip_ws_complete by done. done.
  - exists 1%nat. intros [|n] w rest Hn Hw Hr; [lia|]. cbn [pvalue]. rewrite skip_ws_complete by done. done.
  - exists 1%nat. intros [|n] w rest Hn Hw Hr; [lia|]. cbn [pvalue]. rewrite skip_ws_complete by done. done.
  - intros raw neg m e H. exists 1%nat. intros [|n] w rest Hn Hw Hr; [lia|]. cbn [pvalue].
    pose proof (numeral_head _ _ _ _ H) as (c & l & E & Hc).
    assert (starts c) as [Hs _]. { eapply t_num, text_head in H as (c' & l' & E' & Hs). rewrite E in E'. by injection E' as <- <-. }
    rewrite skip_ws_complete; [|done|by rewrite E]. rewrite <- (parse_num_complete raw neg m e rest H Hr). rewrite E. rewrite <- app_comm_cons.
    assert (∀ d, d ≠ "-"%char → is_digit d = false → Ascii.eqb c d = false) as Hne.
    { intros d Hd Hd'. apply Ascii.eqb_neq. intros ->. destruct Hc as [->|Hc]; [done|congruence]. }
    rewrite !Hne by done. done.
  - intros raw s H. exists 1%nat. intros [|n] w rest Hn Hw Hr; [lia|]. cbn [pvalue].
    destruct (quoted_complete raw s rest H) as (l & -> & Hp). rewrite skip_ws_complete by done. rewrite Ascii.eqb_refl, Hp.
    by rewrite list_string.
  - intros w0 H. exists 1%nat. intros [|n] w rest Hn Hw Hr; [lia|]. cbn [pvalue]. rewrite skip_ws_complete by done.
    change (chars "[" ++ w0 ++ chars "]") with ("["%char :: w0 ++ ["]"%char]). rewrite <- app_comm_cons, <- app_assoc.
    cbn -[pelems pmembers skip_ws]. rewrite skip_ws_complete by done. done.
  - intros raw l He [n0 IH]. exists (S n0). intros [|n] w rest Hn Hw Hr; [lia|]. cbn [pvalue]. rewrite skip_ws_complete by done.
    change (chars "[" ++ raw ++ chars "]") with ("["%char :: raw ++ ["]"%char]). rewrite <- app_comm_cons, <- app_assoc.
    cbn -[pelems pmembers skip_ws]. destruct (items_head _ _ He) as (w' & c & raw' & E & Hw' & Hc & Hc1 & _).
    specialize (IH n rest ltac:(lia)). rewrite IH. rewrite E, <- app_assoc, skip_ws_complete by done. simpl.
    destruct (Ascii.eqb_spec c "]"%char); done.
  - intros w0 H. exists 1%nat. intros [|n] w rest Hn Hw Hr; [lia|]. cbn [pvalue]. rewrite skip_ws_complete by done.
    change (chars "{" ++ w0 ++ chars "}") with ("{"%char :: w0 ++ ["}"%char]). rewrite <- app_comm_cons, <- app_assoc.
    cbn -[pelems pmembers skip_ws]. rewrite skip_ws_complete by done. done.
  - intros raw l He [n0 IH]. exists (S n0). intros [|n] w rest Hn Hw Hr; [lia|]. cbn [pvalue]. rewrite skip_ws_complete by done.
    change (chars "{" ++ raw ++ chars "}") with ("{"%char :: raw ++ ["}"%char]). rewrite <- app_comm_cons, <- app_assoc.
    cbn -[pelems pmembers skip_ws]. destruct (members_head _ _ He) as (w' & raw' & E & Hw').
    specialize (IH n rest ltac:(lia)). rewrite IH. rewrite E, <- app_assoc, skip_ws_complete by done. done.
  - intros w1 raw w2 j Hw1 Ht [n0 IH] Hw2. exists (S n0). intros [|n] rest Hn; [lia|]. cbn [pelems].
    rewrite <- !app_assoc. rewrite IH; [|lia|done|by apply blank_num_end]. rewrite skip_ws_complete by done. done.
  - intros w1 raw w2 j rest0 l Hw1 Ht [n0 IH] Hw2 He [n1 IH1]. exists (S (max n0 n1)). intros [|n] rest Hn; [lia|]. cbn [pelems].
    rewrite <- !app_assoc. rewrite IH; [|lia|done|by apply blank_num_end]. rewrite skip_ws_complete by done.
    cbn -[pelems]. rewrite IH1 by lia. done.
  - intros w1 name w2 w3 raw w4 k j Hw1 Hk Hw2 Hw3 Ht [n0 IH] Hw4. exists (S n0). intros [|n] rest Hn; [lia|]. cbn [pmembers].
    rewrite <- !app_assoc. destruct (quoted_complete name k (w2 ++ chars ":" ++ w3 ++ raw ++ w4 ++ "}"%char :: rest) Hk) as (l & -> & Hp).
    rewrite skip_ws_complete by done. rewrite Ascii.eqb_refl, Hp. rewrite skip_ws_complete by done. cbn -[pvalue skip_ws].
    rewrite IH; [|lia|done|by apply blank_num_end]. rewrite skip_ws_complete by done. cbn. by rewrite list_string.
  - intros w1 name w2 w3 raw w4 k j rest0 m Hw1 Hk Hw2 Hw3 Ht [n0 IH] Hw4 Hm [n1 IH1]. exists (S (max n0 n1)).
    intros [|n] rest Hn; [lia|]. cbn [pmembers].
    rewrite <- !app_assoc. destruct (quoted_complete name k (w2 ++ chars ":" ++ w3 ++ raw ++ w4 ++ chars "," ++ rest0 ++ "}"%char :: rest) Hk) as (l & -> & Hp).
    rewrite skip_ws_complete by done. rewrite Ascii.eqb_refl, Hp. rewrite skip_ws_complete by done. cbn -[pvalue pmembers skip_ws].
    rewrite IH; [|lia|done|by apply blank_num_end]. rewrite skip_ws_complete by done. cbn -[pmembers]. rewrite IH1 by lia.
    by rewrite list_string.
Qed.

Lemma parse_iff text j : parse text = Some j ↔ document text j.
Proof.
  split.
  - unfold parse. destruct (pvalue _ text) as [[j' r]|] eqn:E; [|done]. apply parse_sound in E as (w & raw & Et & Hw & Ht).
    destruct (skip_ws_sound r) as (w2 & Hr & Hw2). destruct (skip_ws r); [|done]. intros [= <-].
    exists w, raw, w2. rewrite app_nil_r in Hr. subst. done.
  - intros (w1 & raw & w2 & Et & Hw1 & Ht & Hw2). destruct (proj1 parse_complete raw j Ht) as [n0 H].
    specialize (H (max n0 (S (2 * length text))) w1 w2 ltac:(lia) Hw1).
    assert (num_end w2) as Hne. { rewrite <- (app_nil_r w2). apply blank_num_end; done. }
    specialize (H Hne). rewrite <- Et in H. unfold parse.
    destruct (parse_fuel (S (2 * length text))) as [Hf _]. rewrite (Hf text) in H by lia. rewrite H.
    rewrite <- (app_nil_r w2), skip_ws_complete by done. done.
Qed.
Lemma document_unique text j1 j2 : document text j1 → document text j2 → j1 = j2.
Proof. rewrite <- !parse_iff. congruence. Qed.
