(** * Names, types, regeneration and the documentation tables. *)
From Verif Require Export GenFacts.
From Coq Require Import Lia Sorting.Sorted.
Local Open Scope nat_scope.

(** ** Names *)
Definition letter (c : ascii) : bool := is_upper c || is_lower c.
Definition alnum (c : ascii) : bool := letter c || is_digit c.
Definition all_ascii : list ascii := map ascii_of_nat (seq 0 256).
Lemma every_ascii (f : ascii → bool) : forallb f all_ascii = true → ∀ c, f c = true.
Proof.
  intros H c. rewrite forallb_forall in H. apply H. unfold all_ascii. apply in_map_iff. exists (nat_of_ascii c).
  split; [apply ascii_nat_embedding|]. apply in_seq. pose proof (nat_ascii_bounded c). lia.
Qed.
Lemma lower_upper c : lower (upper c) = lower c.
Proof. apply Ascii.eqb_eq. revert c. apply (every_ascii (λ c, Ascii.eqb (lower (upper c)) (lower c))). vm_compute. reflexivity. Qed.
Lemma upper_upper c : upper (upper c) = upper c.
Proof. apply Ascii.eqb_eq. revert c. apply (every_ascii (λ c, Ascii.eqb (upper (upper c)) (upper c))). vm_compute. reflexivity. Qed.
Lemma upper_letter c : letter c = true → is_upper (upper c) = true.
Proof.
  pose proof (every_ascii (λ c, implb (letter c) (is_upper (upper c)))) as H. specialize (H ltac:(vm_compute; reflexivity) c). cbn in H.
  destruct (letter c); [done|done].
Qed.
Lemma upper_alnum c : alnum c = true → alnum (upper c) = true.
Proof.
  pose proof (every_ascii (λ c, implb (alnum c) (alnum (upper c)))) as H. specialize (H ltac:(vm_compute; reflexivity) c). cbn in H.
  destruct (alnum c); [done|done].
Qed.
Lemma alnum_word c : alnum c = true → word_char c = true.
Proof.
  pose proof (every_ascii (λ c, implb (alnum c) (word_char c))) as H. specialize (H ltac:(vm_compute; reflexivity) c). cbn in H.
  destruct (alnum c); [done|done].
Qed.
Lemma alnum_no_separator c : alnum c = true → isSeparator c = false.
Proof.
  pose proof (every_ascii (λ c, implb (alnum c) (negb (isSeparator c)))) as H. specialize (H ltac:(vm_compute; reflexivity) c). cbn in H.
  destruct (alnum c); [|done]. intros _. by destruct (isSeparator c).
Qed.
Lemma title_lower l : ∀ b, map lower (title b l) = map lower l.
Proof.
  induction l as [|c l IH]; intros b; cbn [title map]; [done|]. rewrite IH. f_equal. destruct b; [apply lower_upper|done].
Qed.
Lemma abbreviations_lower w : map lower (abbreviations w) = map lower w.
Proof. unfold abbreviations. case_bool_decide; [|done]. rewrite map_map. apply map_ext. apply lower_upper. Qed.
Lemma concat_fields l : ∀ cur, concat (fields_func l cur) = rev cur ++ List.filter (λ c, negb (isSeparator c)) l.
Proof.
  induction l as [|c l IH]; intros cur; cbn [fields_func List.filter].
  - destruct cur as [|d cur]; [done|]. cbn [concat]. by rewrite app_nil_r.
  - destruct (isSeparator c); cbn [negb].
    + destruct cur as [|d cur]; [by rewrite IH|]. cbn [concat]. by rewrite IH.
    + rewrite IH. cbn [rev]. by rewrite <- app_assoc.
Qed.
Lemma goTypeName_lower name : map lower (goTypeName name) = map lower (List.filter (λ c, negb (isSeparator c)) name).
Proof.
  pose proof (concat_fields name []) as H. cbn [rev app] in H. rewrite <- H. unfold goTypeName. rewrite !concat_map, map_map. f_equal. apply map_ext.
  intros w. by rewrite title_lower, abbreviations_lower.
Qed.
Lemma fields_separator a s b : isSeparator s = true → ∀ cur, fields_func (a ++ s :: b) cur = fields_func a cur ++ fields_func b [].
Proof.
  intros Hs. induction a as [|c a IH]; intros cur; cbn [app fields_func].
  - rewrite Hs. by destruct cur.
  - destruct (isSeparator c); [|apply IH]. destruct cur; [apply IH|]. by rewrite IH.
Qed.
Lemma goTypeName_separator a s b : isSeparator s = true → goTypeName (a ++ s :: b) = goTypeName a ++ goTypeName b.
Proof. intros Hs. unfold goTypeName. by rewrite (fields_separator a s b Hs), map_app, concat_app. Qed.
Lemma fields_word w : ∀ cur, Forall (λ c, isSeparator c = false) w → fields_func w cur = match rev cur ++ w with [] => [] | x => [x] end.
Proof.
  induction w as [|c w IH]; intros cur Hw; cbn [fields_func].
  - rewrite app_nil_r. destruct cur as [|d cur]; [done|]. destruct (rev (d :: cur)) eqn:E; [|done].
    apply (f_equal length) in E. rewrite rev_length in E. done.
  - apply Forall_cons in Hw as [Hc Hw]. rewrite Hc, IH by done. cbn [rev]. by rewrite <- app_assoc.
Qed.
Lemma title_word w : Forall (λ c, alnum c = true) w → title false w = w.
Proof.
  induction 1 as [|c w Hc Hw IH]; [done|]. cbn [title]. rewrite (alnum_word c Hc). cbn [negb]. by rewrite IH.
Qed.
Lemma title_first c w : alnum c = true → Forall (λ c, alnum c = true) w → title true (c :: w) = upper c :: w.
Proof. intros Hc Hw. cbn [title]. rewrite (alnum_word c Hc). cbn [negb]. by rewrite title_word. Qed.
Lemma goTypeName_word c w : alnum c = true → Forall (λ c, alnum c = true) w →
  goTypeName (c :: w) = if bool_decide (map lower (c :: w) ∈ known_abbreviations) then map upper (c :: w) else upper c :: w.
Proof.
  intros Hc Hw. unfold goTypeName. rewrite fields_word.
  2:{ apply List.Forall_cons; [by apply alnum_no_separator|]. eapply Forall_impl; [exact Hw|]. intros x. apply alnum_no_separator. }
  unfold abbreviations. cbn [rev app map concat]. rewrite app_nil_r. case_bool_decide.
  - cbn [map]. rewrite title_first; [by rewrite upper_upper|by apply upper_alnum|]. apply Forall_forall. intros x Hx.
    apply elem_of_list_fmap in Hx as (y & -> & Hy). rewrite Forall_forall in Hw. by apply upper_alnum, Hw.
  - by apply title_first.
Qed.
Lemma goTypeName_alnum name : Forall (λ c, alnum c = true ∨ isSeparator c = true) name → Forall (λ c, alnum c = true) (goTypeName name).
Proof.
  intros Hn. unfold goTypeName.
  assert (∀ l cur, Forall (λ c, alnum c = true ∨ isSeparator c = true) l → Forall (λ c, alnum c = true) cur →
    Forall (λ w, w ≠ [] ∧ Forall (λ c, alnum c = true) w) (fields_func l cur)) as Hf.
  { clear. induction l as [|c l IH]; intros cur Hl Hcur; cbn [fields_func].
    - destruct cur as [|d cur]; [apply List.Forall_nil|]. apply List.Forall_cons; [|apply List.Forall_nil]. split.
      + intros E. apply (f_equal length) in E. rewrite rev_length in E. done.
      + apply Forall_rev. exact Hcur.
    - apply Forall_cons in Hl as [Hc Hl]. destruct (isSeparator c) eqn:E.
      + destruct cur as [|d cur]; [apply IH; [done|apply List.Forall_nil]|]. apply List.Forall_cons; [|apply IH; [done|apply List.Forall_nil]]. split.
        * intros E'. apply (f_equal length) in E'. rewrite rev_length in E'. done.
        * apply Forall_rev. exact Hcur.
      + destruct Hc as [Hc|]; [|done]. apply IH; [done|]. by apply List.Forall_cons. }
  specialize (Hf name [] Hn (List.Forall_nil _)). induction Hf as [|w ws [Hne Hw] _ IH]; [apply List.Forall_nil|]. cbn [map concat].
  apply Forall_app. split; [|done]. unfold abbreviations. destruct w as [|c w]; [done|]. apply Forall_cons in Hw as [Hc Hw]. case_bool_decide.
  - cbn [map]. rewrite title_first; [|by apply upper_alnum|].
    + rewrite upper_upper. apply List.Forall_cons; [by apply upper_alnum|]. apply Forall_forall. intros x Hx.
      apply elem_of_list_fmap in Hx as (y & -> & Hy). rewrite Forall_forall in Hw. by apply upper_alnum, Hw.
    + apply Forall_forall. intros x Hx. apply elem_of_list_fmap in Hx as (y & -> & Hy). rewrite Forall_forall in Hw. by apply upper_alnum, Hw.
  - rewrite title_first by done. apply List.Forall_cons; [by apply upper_alnum|done].
Qed.
Lemma goTypeName_first ss c rest : Forall (λ s, isSeparator s = true) ss → letter c = true →
  ∃ r, goTypeName (ss ++ c :: rest) = upper c :: r.
Proof.
  intros Hss Hc.
  assert (∀ cur l, cur ≠ [] → ∃ w' ws, fields_func l cur = (rev cur ++ w') :: ws) as Hf.
  { clear. intros cur l. revert cur. induction l as [|d l IH]; intros cur Hne; cbn [fields_func].
    - destruct cur; [done|]. exists [], []. by rewrite app_nil_r.
    - destruct (isSeparator d); [destruct cur; [done|]; eexists [], _; by rewrite app_nil_r|].
      destruct (IH (d :: cur)) as (w' & ws & ->); [done|]. cbn [rev]. exists (d :: w'), ws. by rewrite <- app_assoc. }
  assert (∃ w ws, fields_func (ss ++ c :: rest) [] = (c :: w) :: ws) as (w & ws & Hw).
  { induction Hss as [|s ss Hs _ IH]; cbn [app fields_func].
    - rewrite alnum_no_separator by (unfold alnum; by rewrite Hc). destruct (Hf [c] rest) as (w' & ws & ->); [done|]. by exists w', ws.
    - by rewrite Hs. }
  unfold goTypeName. rewrite Hw. cbn [map concat]. unfold abbreviations. case_bool_decide; cbn [map title app].
  - rewrite upper_upper. by eexists.
  - by eexists.
Qed.

(** ** Types *)
Lemma last_index_absent c l : c ∉ l → last_index c l = None.
Proof.
  induction l as [|d l IH]; intros Hl; cbn [last_index]; [done|]. apply not_elem_of_cons in Hl as [Hc Hl]. rewrite IH by done.
  destruct (Ascii.eqb_spec d c); [congruence|done].
Qed.
Lemma last_index_at c a b : c ∉ b → last_index c (a ++ c :: b) = Some (a, b).
Proof.
  intros Hb. induction a as [|d a IH]; cbn [app last_index].
  - rewrite last_index_absent by done. by rewrite Ascii.eqb_refl.
  - by rewrite IH.
Qed.
Lemma last_index_some c l a b : last_index c l = Some (a, b) ↔ l = a ++ c :: b ∧ c ∉ b.
Proof.
  split; [|intros [-> Hb]; by apply last_index_at]. intros E. destruct (decide (c ∈ l)) as [Hin|Hin].
  - apply elem_of_list_split_r in Hin as (l1 & l2 & -> & Hl2). rewrite last_index_at in E by done. by injection E as <- <-.
  - by rewrite last_index_absent in E.
Qed.
Lemma last_index_none c l : last_index c l = None ↔ c ∉ l.
Proof.
  split; [|apply last_index_absent]. intros E Hin. apply elem_of_list_split_r in Hin as (l1 & l2 & -> & Hl2). by rewrite last_index_at in E.
Qed.
Lemma import_keys_spec opts : ∀ seen, NoDup seen → NoDup (import_keys opts seen) ∧
  ∀ i, i ∈ import_keys opts seen ↔ i ∈ seen ∨ ∃ o n, o ∈ opts ∧ o_type o = i ++ dot :: n ∧ dot ∉ n.
Proof.
  induction opts as [|o opts IH]; intros seen Hseen; cbn [import_keys].
  - split; [done|]. intros i. split; [by left|]. intros [|(o & n & Ho & _)]; [done|]. by apply elem_of_nil in Ho.
  - destruct (last_index dot (o_type o)) as [[p n]|] eqn:E.
    + apply last_index_some in E as [Et Hn].
      assert (NoDup (if bool_decide (p ∈ seen) then seen else p :: seen)) as Hnd.
      { case_bool_decide; [done|]. by apply NoDup_cons. }
      destruct (IH _ Hnd) as [H1 H2]. split; [done|]. intros i. rewrite H2. clear H2 IH.
      assert (i ∈ (if bool_decide (p ∈ seen) then seen else p :: seen) ↔ i = p ∨ i ∈ seen) as ->.
      { case_bool_decide; [|by rewrite elem_of_cons]. split; [by right|]. by intros [->|]. }
      split.
      * intros [[->|]|(o' & n' & Ho & Hr)]; [right; exists o, n; split; [by left|done]|by left|]. right. exists o', n'. split; [by right|done].
      * intros [|(o' & n' & Ho & Ht & Hn')]; [by left; right|]. apply elem_of_cons in Ho as [->|Ho].
        -- left. left. rewrite Et in Ht. assert (last_index dot (i ++ dot :: n') = Some (i, n')) as E1 by (by apply last_index_some).
           rewrite <- Ht in E1. assert (last_index dot (p ++ dot :: n) = Some (p, n)) as E2 by (by apply last_index_some). rewrite E2 in E1. by injection E1 as <- _.
        -- right. by exists o', n'.
    + apply last_index_none in E. destruct (IH _ Hseen) as [H1 H2]. split; [done|]. intros i. rewrite H2. split.
      * intros [|(o' & n' & Ho & Hr)]; [by left|]. right. exists o', n'. split; [by right|done].
      * intros [|(o' & n' & Ho & Ht & Hn')]; [by left|]. apply elem_of_cons in Ho as [->|Ho]; [|right; by exists o', n'].
        exfalso. apply E. rewrite Ht. apply in_middle.
Qed.
Lemma imports_spec opts imports : configTypeImports opts imports → NoDup imports ∧
  ∀ i, i ∈ imports ↔ ∃ o n, o ∈ opts ∧ o_type o = i ++ dot :: n ∧ dot ∉ n.
Proof.
  intros Hp. unfold configTypeImports in Hp. destruct (import_keys_spec opts [] (NoDup_nil_2)) as [H1 H2]. split; [by rewrite Hp|].
  intros i. rewrite Hp, H2. split; [|by right]. intros [H|]; [by apply elem_of_nil in H|done].
Qed.
Lemma trimImportPrefix_path dir base : slash ∉ base → trimImportPrefix (dir ++ slash :: base) = base.
Proof. intros Hb. unfold trimImportPrefix. assert (last_index slash (dir ++ slash :: base) = Some (dir, base)) as -> by (by apply last_index_some). done. Qed.
Lemma trimImportPrefix_plain t : slash ∉ t → trimImportPrefix t = t.
Proof. intros Ht. unfold trimImportPrefix. by rewrite (proj2 (last_index_none _ _) Ht). Qed.

(** ** Sorting *)
Lemma text_le_antisym a : ∀ b, text_le a b = true → text_le b a = true → a = b.
Proof.
  induction a as [|c a IH]; intros [|d b]; cbn [text_le]; try done. destruct (Nat.eqb_spec (code c) (code d)) as [E|E].
  - rewrite E, Nat.eqb_refl. intros H1 H2. f_equal; [|by apply IH]. unfold code in E. rewrite <- (ascii_nat_embedding c), <- (ascii_nat_embedding d). by rewrite E.
  - destruct (Nat.eqb_spec (code d) (code c)); [lia|]. rewrite !Nat.ltb_lt. lia.
Qed.
Lemma sorted_unique opts a b : NoDup (map o_name opts) → sorted_options opts a → sorted_options opts b → a = b.
Proof.
  intros Hnd [Pa Sa] [Pb Sb]. assert (a ≡ₚ b) as Hab by (by rewrite Pa, Pb).
  assert (NoDup (map o_name a)) as Hna. { assert (map o_name a ≡ₚ map o_name opts) as -> by (by rewrite Pa). done. }
  clear opts Hnd Pa Pb. revert b Hab Sb. induction a as [|x a IH]; intros b Hab Sb.
  - apply Permutation_nil_l in Hab. done.
  - destruct b as [|y b]; [by symmetry in Hab; apply Permutation_nil_cons in Hab|].
    apply StronglySorted_inv in Sa as [Sa Hx]. apply StronglySorted_inv in Sb as [Sb Hy]. cbn [map] in Hna.
    assert (x = y) as ->.
    { assert (x ∈ y :: b) as Hxb by (rewrite <- Hab; by left). assert (y ∈ x :: a) as Hya by (rewrite Hab; by left).
      apply elem_of_cons in Hxb as [|Hxb]; [done|]. apply elem_of_cons in Hya as [|Hya]; [done|].
      rewrite Forall_forall in Hx, Hy. pose proof (text_le_antisym _ _ (Hx _ Hya) (Hy _ Hxb)) as E.
      apply NoDup_cons in Hna as [Hna _]. exfalso. apply Hna. rewrite E. apply elem_of_list_fmap. by exists y. }
    f_equal. apply IH; [done|by apply NoDup_cons in Hna as [_ Hna]| |done]. by apply Permutation_cons_inv in Hab.
Qed.

(** ** Regeneration *)
Section regenerate.
  Context (gofmt : list ascii → option (list ascii)) (find_process : list ascii → option bool) (lib : library) (lic : list ascii).
  (** gofmt and the parser agree with the template on whether Process is there. *)
  Definition reads_back : Prop := ∀ name imports p include src out,
    source_text lib lic name imports p include = Some src → gofmt src = Some out → find_process out = Some include.
  (** gofmt sorts the imports. *)
  Definition sorts_imports : Prop := ∀ name imports imports' p include src src',
    imports ≡ₚ imports' → source_text lib lic name imports p include = Some src → source_text lib lic name imports' p include = Some src' →
    gofmt src = gofmt src'.
  Lemma write_file_same fs n t : write_file fs n t n = Some t.
  Proof. unfold write_file. by rewrite bool_decide_eq_true_2. Qed.
  Lemma write_file_other fs n t m : m ≠ n → write_file fs n t m = fs m.
  Proof. intros H. unfold write_file. by rewrite bool_decide_eq_false_2. Qed.
  Lemma generated_other fs n p fs' m : generated gofmt find_process lib lic fs n p fs' → m ≠ n → fs' m = fs m.
  Proof. intros (conf & imports & src & out & _ & _ & _ & _ & ->) Hm. by apply write_file_other. Qed.
  Lemma run_other fs ps fs' d m : generator_run gofmt find_process lib lic fs ps fs' d → m ∉ map fst ps → fs' m = fs m.
  Proof.
    induction 1 as [fs|fs ps|fs n p ps fs1 fs2 d Hg _ IH]; intros Hm; [done|done|]. cbn [map] in Hm. apply not_elem_of_cons in Hm as [Hm1 Hm2].
    rewrite IH by done. by eapply generated_other.
  Qed.
  Lemma generated_include fs n p fs' m : reads_back → generated gofmt find_process lib lic fs n p fs' →
    include_process find_process (fs' m) = include_process find_process (fs m).
  Proof.
    intros Hrb Hg. destruct (decide (m = n)) as [->|Hm]; [|by rewrite (generated_other _ _ _ _ _ Hg Hm)].
    destruct Hg as (conf & imports & src & out & _ & _ & Hs & Ho & ->). rewrite write_file_same. cbn [include_process].
    rewrite (Hrb _ _ _ _ _ _ Hs Ho). by destruct (include_process find_process (fs n)).
  Qed.
  Lemma run_include fs ps fs' d m : reads_back → generator_run gofmt find_process lib lic fs ps fs' d →
    include_process find_process (fs' m) = include_process find_process (fs m).
  Proof.
    intros Hrb. induction 1 as [fs|fs ps|fs n p ps fs1 fs2 d Hg _ IH]; [done|done|]. rewrite IH. exact (generated_include fs n p fs1 m Hrb Hg).
  Qed.
  Lemma generated_twice fs fs1 fs2 fs3 n p : reads_back → sorts_imports → NoDup (map o_name (p_conf p)) →
    generated gofmt find_process lib lic fs n p fs1 → include_process find_process (fs2 n) = include_process find_process (fs n) →
    generated gofmt find_process lib lic fs2 n p fs3 → fs3 n = fs1 n.
  Proof.
    intros Hrb Hsi Hnd (conf & imports & src & out & Hc & Hi & Hs & Ho & ->) Hinc (conf' & imports' & src' & out' & Hc' & Hi' & Hs' & Ho' & ->).
    rewrite !write_file_same. rewrite Hinc in Hs'. pose proof (sorted_unique _ _ _ Hnd Hc Hc') as <-.
    unfold configTypeImports in Hi, Hi'. assert (imports ≡ₚ imports') as Hp by (by rewrite Hi, Hi').
    pose proof (Hsi _ _ _ _ _ _ _ Hp Hs Hs') as E. congruence.
  Qed.
  Lemma run_last fs ps fs' : generator_run gofmt find_process lib lic fs ps fs' true → NoDup (map fst ps) → reads_back →
    ∀ n p, (n, p) ∈ ps → ∃ f1 f2, include_process find_process (f1 n) = include_process find_process (fs n) ∧
      generated gofmt find_process lib lic f1 n p f2 ∧ fs' n = f2 n.
  Proof.
    intros Hrun. remember true as d eqn:Ed. induction Hrun as [fs|fs ps|fs n p ps fs1 fs2 d Hg Hrun IH]; intros Hnd Hrb n' p' Hin; [by apply elem_of_nil in Hin|done|].
    cbn [map] in Hnd. apply NoDup_cons in Hnd as [Hn Hnd]. apply elem_of_cons in Hin as [E|Hin].
    - injection E as -> ->. exists fs, fs1. split; [reflexivity|]. split; [exact Hg|]. exact (run_other fs1 ps fs2 d n Hrun Hn).
    - destruct (IH Ed Hnd Hrb _ _ Hin) as (f1 & f2 & E1 & E2 & E3). exists f1, f2. split; [|done]. rewrite E1. exact (generated_include fs n p fs1 n' Hrb Hg).
  Qed.
  Lemma run_twice fs ps ps' fs1 fs2 : reads_back → sorts_imports → NoDup (map fst ps) → Forall (λ x, NoDup (map o_name (p_conf (snd x)))) ps → ps' ≡ₚ ps →
    generator_run gofmt find_process lib lic fs ps fs1 true → generator_run gofmt find_process lib lic fs1 ps' fs2 true → ∀ n, fs2 n = fs1 n.
  Proof.
    intros Hrb Hsi Hnd Hopts Hps R1 R2 n. assert (map fst ps' ≡ₚ map fst ps) as Hmap by (by rewrite Hps).
    destruct (decide (n ∈ map fst ps')) as [Hin|Hin]; [|exact (run_other fs1 ps' fs2 true n R2 Hin)].
    apply elem_of_list_fmap in Hin as ([n' p] & -> & Hin'). assert ((n', p) ∈ ps) as Hin by (by rewrite <- Hps). cbn [fst] in *.
    assert (NoDup (map fst ps')) as Hnd' by (by rewrite Hmap).
    destruct (run_last _ _ _ R1 Hnd Hrb _ _ Hin) as (f1 & f2 & A1 & A2 & A3). destruct (run_last _ _ _ R2 Hnd' Hrb _ _ Hin') as (g1 & g2 & B1 & B2 & B3).
    rewrite A3, B3. rewrite Forall_forall in Hopts. specialize (Hopts _ Hin). cbn [snd] in Hopts.
    apply (generated_twice f1 f2 g1 g2 n' p Hrb Hsi Hopts A2); [|done]. rewrite B1, A1. exact (run_include fs ps fs1 true n' Hrb R1).
  Qed.
End regenerate.

(** ** The documentation tables *)
Lemma one_line_free l : nl ∉ one_line l.
Proof.
  induction l as [|c l IH]; [apply not_elem_of_nil|]. unfold one_line. cbn [map]. apply not_elem_of_cons. split; [|exact IH].
  destruct (Ascii.eqb_spec c nl) as [E|Hne]; [|congruence]. apply (bool_decide_eq_true_1 _). vm_compute. reflexivity.
Qed.
Lemma one_line_bar c l : c ≠ space → c ∉ l → c ∉ one_line l.
Proof.
  intros Hs. induction l as [|d l IH]; intros Hl; [done|]. apply not_elem_of_cons in Hl as [Hd Hl]. unfold one_line. cbn [map]. apply not_elem_of_cons.
  split; [|by apply IH]. by destruct (Ascii.eqb d nl).
Qed.
Definition bar : ascii := "|"%char.
(** The cells of a table row between its bars. *)
Definition padded (l : list ascii) : list ascii := space :: l ++ [space].
Definition row_cells (cells : list (list ascii)) : list ascii := bar :: concat (map (λ c, padded c ++ [bar]) cells).
Lemma doc_row_cells o : doc_row o = row_cells [o_name o; boolToX (o_required o); boolToX (o_optional o); goTypeToYAMLType (o_type o); doc_default (o_default o); one_line (o_desc o)] ++ [nl].
Proof.
  unfold doc_row, row_cells, padded. cbn [map concat txt list_ascii_of_string app]. do 8 (rewrite <- ?app_assoc; cbn [app]). reflexivity.
Qed.
Lemma row_unique cells : ∀ cs, Forall (bar ∉.) cells → Forall (bar ∉.) cs →
  concat (map (λ c, c ++ [bar]) cs) ++ [nl] = concat (map (λ c, c ++ [bar]) cells) ++ [nl] → cs = cells.
Proof.
  assert (bar ∉ [nl]) as Hbn by (apply (bool_decide_eq_true_1 _); vm_compute; reflexivity).
  induction cells as [|c cells IH]; intros cs Hc Hcs E; destruct cs as [|d cs]; [done| | |]; cbn [map concat] in E; rewrite <- ?app_assoc in E; cbn [app] in E.
  - exfalso. apply Hbn. rewrite <- E. apply in_middle.
  - exfalso. apply Hbn. rewrite E. apply in_middle.
  - apply Forall_cons in Hc as [Hc Hcells]. apply Forall_cons in Hcs as [Hd Hcs].
    apply split_at in E as [-> E]; [|done|done]. f_equal. by apply IH.
Qed.
Lemma padded_bar l : bar ∉ l → bar ∉ padded l.
Proof.
  intros Hl. unfold padded. apply not_elem_of_cons. split; [apply (bool_decide_eq_true_1 _); vm_compute; reflexivity|].
  apply not_elem_of_app. split; [done|]. apply (bool_decide_eq_true_1 _); vm_compute; reflexivity.
Qed.
Lemma boolToX_free c b : c ∉ txt "x" → c ∉ boolToX b.
Proof. intros H. destruct b; [done|apply not_elem_of_nil]. Qed.
Lemma goType_free c t : c ∉ t → c ∉ txt "anymap" → c ∉ goTypeToYAMLType t.
Proof.
  intros Ht Hc. unfold goTypeToYAMLType. assert (c ∉ txt "any" ∧ c ∉ txt "map") as [H1 H2].
  { change (txt "anymap") with (txt "any" ++ txt "map") in Hc. by apply not_elem_of_app in Hc. }
  case_bool_decide; [done|]. by case_bool_decide.
Qed.

(** ** The code of a generated file *)
Definition good_name (n : list ascii) : Prop :=
  ∃ c rest, n = c :: rest ∧ letter c = true ∧ Forall (λ c, alnum c = true ∨ isSeparator c = true) rest.
(** The line of a field, and of a default. *)
Definition field_line (o : option_def) : list ascii :=
  txt "    " ++ goTypeName (o_name o) ++ txt " " ++ trimImportPrefix (o_type o) ++ txt " `config:""" ++ o_name o ++ txt """" ++
  (if o_required o then txt " validate:""required""" else []) ++ txt "`".
Definition default_line (lib : library) (o : option_def) : list ascii :=
  txt "    c." ++ goTypeName (o_name o) ++ txt " = " ++
  match o_default o with Some (DString s) => quote lib s | Some (DOther t _) => t | None => [] end.
Lemma field_rest_line o : field_rest o = field_line o ++ [nl].
Proof.
  unfold field_rest, field_line, quoted. cbn [txt list_ascii_of_string app]. destruct (o_required o); do 8 (rewrite <- ?app_assoc; cbn [app]); reflexivity.
Qed.
Lemma default_text_line lib o : default_text lib o = nl :: default_line lib o.
Proof. unfold default_text, default_line, quoteStrings. destruct (o_default o) as [[]|]; reflexivity. Qed.
Lemma alnum_not_nl c : alnum c = true → c ≠ nl.
Proof. intros H ->. by vm_compute in H. Qed.
Lemma sep_not_nl c : isSeparator c = true → c ≠ nl.
Proof. intros H ->. by vm_compute in H. Qed.
Lemma good_name_free n : good_name n → nl ∉ n ∧ nl ∉ goTypeName n.
Proof.
  intros (c & rest & -> & Hc & Hr).
  assert (Forall (λ c, alnum c = true ∨ isSeparator c = true) (c :: rest)) as Hall by (apply List.Forall_cons; [left; unfold alnum; by rewrite Hc|done]).
  split; intros Hin.
  - rewrite Forall_forall in Hall. destruct (Hall _ Hin) as [H|H]; [by apply alnum_not_nl in H|by apply sep_not_nl in H].
  - pose proof (goTypeName_alnum _ Hall) as Ha. rewrite Forall_forall in Ha. by apply (alnum_not_nl nl (Ha _ Hin)).
Qed.
Lemma last_index_free c t x : x ∉ t → x ∉ match last_index c t with None => t | Some (_, b) => b end.
Proof.
  intros Hx. destruct (last_index c t) as [[a b]|] eqn:E; [|done]. apply last_index_some in E as [-> _].
  apply not_elem_of_app in Hx as [_ Hx]. by apply not_elem_of_cons in Hx as [_ Hx].
Qed.
Lemma nl_free_dec (l : list ascii) : bool_decide (nl ∉ l) = true → nl ∉ l.
Proof. apply bool_decide_eq_true_1. Qed.
Lemma field_line_free o : good_name (o_name o) → nl ∉ o_type o → nl ∉ field_line o.
Proof.
  intros Hn Ht. destruct (good_name_free _ Hn) as [H1 H2]. unfold field_line. rewrite !not_elem_of_app.
  split; [by apply nl_free_dec|]. split; [done|]. split; [by apply nl_free_dec|]. split; [by apply last_index_free|]. split; [by apply nl_free_dec|].
  split; [done|]. split; [by apply nl_free_dec|]. split; [destruct (o_required o); by apply nl_free_dec|by apply nl_free_dec].
Qed.
Lemma upper_no_slash c : is_upper c = true → c ≠ space ∧ c ≠ tab ∧ c ≠ slash.
Proof. intros H. repeat split; intros ->; by vm_compute in H. Qed.
Lemma field_line_code o : good_name (o_name o) → only_comment (field_line o) = false.
Proof.
  intros (c & rest & Hn & Hc & Hr). unfold field_line. rewrite Hn. destruct (goTypeName_first [] c rest (List.Forall_nil _) Hc) as [r Hg]. cbn [app] in Hg. rewrite Hg.
  destruct (upper_no_slash (upper c) (upper_letter c Hc)) as (H1 & H2 & H3). cbn [txt list_ascii_of_string app only_comment].
  destruct (Ascii.eqb_spec (upper c) space); [done|]. destruct (Ascii.eqb_spec (upper c) tab); [done|]. destruct (Ascii.eqb_spec (upper c) slash); done.
Qed.
Lemma code_line l rest : nl ∉ l → only_comment l = false → code_lines (l ++ nl :: rest) = l :: code_lines rest.
Proof. intros Hl Hc. unfold code_lines. rewrite split_nl_line by done. cbn [List.filter]. by rewrite Hc. Qed.
Lemma comment_skipped l rest : nl ∉ l → only_comment l = true → code_lines (l ++ nl :: rest) = code_lines rest.
Proof. intros Hl Hc. unfold code_lines. rewrite split_nl_line by done. cbn [List.filter]. by rewrite Hc. Qed.
Lemma code_last l : nl ∉ l → only_comment l = false → code_lines l = [l].
Proof. intros Hl Hc. unfold code_lines. rewrite split_nl_single by done. cbn [List.filter]. by rewrite Hc. Qed.
(** Blank lines between. *)
Fixpoint spaced (ls : list (list ascii)) : list (list ascii) :=
  match ls with
  | [] => []
  | [l] => [l]
  | l :: ls' => l :: [] :: spaced ls'
  end.
Definition struct_lines (ls : list (list ascii)) : list (list ascii) :=
  match ls with
  | [] => [txt "type Config struct {}"]
  | _ => txt "type Config struct {" :: spaced ls ++ [txt "}"]
  end.
Lemma fields_lines lib opts : Forall (λ o, short_comment lib [tab] (o_desc o)) opts → Forall (λ o, good_name (o_name o) ∧ nl ∉ o_type o) opts →
  ∃ t, fields_text lib opts = Some t ∧ ∀ a rest, nl ∉ a → only_comment a = false → only_comment (a ++ txt "}") = false →
    code_lines (a ++ t ++ txt "}" ++ nl :: rest) = match opts with [] => [a ++ txt "}"] | _ => a :: spaced (map field_line opts) ++ [txt "}"] end ++ code_lines rest.
Proof.
  assert (nl ∉ txt "}") as Hb by (by apply nl_free_dec).
  induction opts as [|o opts IH]; intros Hs Hg.
  - exists []. split; [done|]. intros a rest Ha Hc Hc'. cbn [app]. rewrite app_assoc. apply code_line; [|done]. apply not_elem_of_app. by split.
  - apply Forall_cons in Hs as [Ho Hs]. apply Forall_cons in Hg as [[Hn Ht] Hg]. destruct (IH Hs Hg) as (t & Et & Hcode).
    pose proof (description_exact lib [tab] (o_desc o) tab_free Ho) as Hd. pose proof (description_continues lib [tab] (o_desc o) _ tab_free Ho Hd) as Hc.
    cbn [fields_text]. rewrite Hd, Et. eexists. split; [reflexivity|]. intros a rest Ha Hac _. rewrite <- app_assoc, (field_code _ o _ _ Hc).
    rewrite code_last by done. cbn [app]. f_equal.
    rewrite field_rest_line, <- app_assoc. cbn [app].
    pose proof (field_line_free o Hn Ht) as Hf. pose proof (field_line_code o Hn) as Hfc. cbn [map]. rewrite code_line by done.
    specialize (Hcode [] rest (not_elem_of_nil _) eq_refl eq_refl). cbn [app] in Hcode. 
    cbn [txt list_ascii_of_string app] in Hcode |- *. rewrite Hcode. by destruct opts.
Qed.
Lemma default_line_code lib o : only_comment (default_line lib o) = false.
Proof. reflexivity. Qed.
Lemma defaults_lines lib opts a rest : Forall (λ o, nl ∉ default_line lib o) opts → nl ∉ a → only_comment a = false →
  code_lines (a ++ concat (map (default_text lib) opts) ++ nl :: rest) = a :: map (default_line lib) opts ++ code_lines rest.
Proof.
  intros Hf. revert a. induction Hf as [|o opts Ho _ IH]; intros a Ha Hc; cbn [map concat app]; [by apply code_line|].
  rewrite default_text_line. cbn [app]. rewrite code_line by done. f_equal. rewrite <- app_assoc. by apply IH.
Qed.
Lemma selectDefaults_spec opts : selectDefaults opts = List.filter (λ o, bool_decide (o_default o ≠ None)) opts.
Proof. unfold selectDefaults. apply filter_ext. intros o. by destruct (o_default o). Qed.
Definition unlines (ls : list (list ascii)) : list ascii := concat (map (λ l, l ++ [nl]) ls).
Lemma unlines_code ls rest : Forall (nl ∉.) ls → code_lines (unlines ls ++ rest) = List.filter (λ l, negb (only_comment l)) ls ++ code_lines rest.
Proof.
  intros Hl. induction Hl as [|l ls Hl _ IH]; [done|]. unfold unlines. cbn [map concat List.filter]. fold (unlines ls). rewrite <- !app_assoc. cbn [app].
  destruct (only_comment l) eqn:E; cbn [negb].
  - by rewrite comment_skipped.
  - rewrite code_line by done. cbn [app]. by f_equal.
Qed.
Lemma imports_unlines (imports : list (list ascii)) rest :
  concat (map import_text imports) ++ nl :: rest = nl :: unlines (map (λ i, txt "    " ++ quoted i) imports) ++ rest.
Proof.
  induction imports as [|i imports IH]; [done|]. cbn [map concat]. unfold unlines. cbn [map concat]. fold (unlines (map (λ i, txt "    " ++ quoted i) imports)).
  unfold import_text at 1. rewrite <- !app_assoc. cbn [app]. rewrite IH. rewrite <- !app_assoc. cbn [app]. done.
Qed.
(** The lines of code before the struct and after InitDefaults. *)
Definition head_lines (lic name : list ascii) (imports : list (list ascii)) : list (list ascii) :=
  code_lines lic ++ [[]; txt "package " ++ map lower name; []; txt "import ("; []] ++ map (λ i, txt "    """ ++ i ++ txt """") imports ++
  [txt "    ""github.com/andrewkroh/go-sawmill/pkg/processor"""; txt "    ""github.com/andrewkroh/go-sawmill/pkg/processor/registry"""; txt ")"; [];
   txt "func init() {"; txt "    registry.MustRegister(processorName, New)"; txt "}"; [];
   txt "const ("; txt "    processorName = """ ++ name ++ txt """"; txt ")"; []].
Definition tail_lines (t : list ascii) (include : bool) : list (list ascii) :=
  [[]; txt "type " ++ t ++ txt " struct {"; txt "    config Config"; txt "}"; [];
   txt "func New(config Config) (*" ++ t ++ txt ", error) {"; txt "    return &" ++ t ++ txt "{config: config}, nil"; txt "}"; [];
   txt "func (p *" ++ t ++ txt ") Config() Config {"; txt "    return p.config"; txt "}"; [];
   txt "func (p *" ++ t ++ txt ") String() string {"; txt "    return processor.ConfigString(processorName, p.config)"; txt "}"; []] ++
  (if include then [[]; txt "func (p *" ++ t ++ txt ") Process(event processor.Event) error {"; txt "    return nil"; txt "}"] else []) ++ [[]; []].
Ltac free := rewrite ?not_elem_of_app; repeat split; try done; by apply nl_free_dec.
Lemma head_code lic name imports rest : nl ∉ name → Forall (nl ∉.) imports →
  code_lines (head_text lic name imports ++ rest) = head_lines lic name imports ++ code_lines (txt "type Config struct {" ++ rest).
Proof.
  intros Hn Hi.
  assert (nl ∉ map lower name) as Hm.
  { intros H. apply elem_of_list_fmap in H as (c & Hc & Hin). apply Hn. assert (c = nl) as ->; [|done].
    pose proof (every_ascii (λ c, negb (Ascii.eqb (lower c) nl) || Ascii.eqb c nl)) as H. specialize (H ltac:(vm_compute; reflexivity) c).
    cbv beta in H. rewrite <- Hc in H. cbn in H. by apply Ascii.eqb_eq. }
  assert (head_text lic name imports ++ rest = lic ++ nl :: unlines [[]; txt "// Code generated by processor/generate.go - DO NOT EDIT."; txt "package " ++ map lower name; []; txt "import ("; []] ++
    unlines (map (λ i, txt "    " ++ quoted i) imports) ++
    unlines [txt "    ""github.com/andrewkroh/go-sawmill/pkg/processor"""; txt "    ""github.com/andrewkroh/go-sawmill/pkg/processor/registry"""; txt ")"; [];
   txt "func init() {"; txt "    registry.MustRegister(processorName, New)"; txt "}"; [];
   txt "const ("; txt "    processorName = """ ++ name ++ txt """"; txt ")"; []; txt "// Config contains the configuration options for the " ++ name ++ txt " processor."] ++
   txt "type Config struct {" ++ rest) as ->.
  { unfold head_text, ln, quoted, unlines at 1 3. cbn [map concat]. do 6 (rewrite <- ?app_assoc; cbn [app]). do 12 f_equal. rewrite imports_unlines. reflexivity. }
  rewrite code_lines_app. unfold head_lines. rewrite <- !app_assoc. f_equal.
  rewrite unlines_code by (repeat (apply List.Forall_cons; [free|]); apply List.Forall_nil).
  rewrite unlines_code.
  2: { apply Forall_forall. intros x Hx. apply elem_of_list_fmap in Hx as (i & -> & Hin). rewrite Forall_forall in Hi. specialize (Hi _ Hin). unfold quoted.
       change (quote1 :: i ++ [quote1]) with ([quote1] ++ i ++ [quote1]). free. }
  rewrite unlines_code by (repeat (apply List.Forall_cons; [free|]); apply List.Forall_nil).
  f_equal. f_equal. 
  induction imports as [|i imports IH]; [done|]. cbn [map List.filter]. apply Forall_cons in Hi as [_ Hi]. rewrite <- (IH Hi). done.
Qed.
Lemma tail_code name include : nl ∉ goTypeName name → [] :: code_lines (tail_text name include) = tail_lines (goTypeName name) include.
Proof.
  intros Hn. unfold tail_text. set (t := goTypeName name) in *. clearbody t. cbv zeta.
  match goal with |- [] :: code_lines ?x = _ => assert (x = unlines [txt "type " ++ t ++ txt " struct {"; txt "    config Config"; txt "}"; [];
   txt "// New returns a new " ++ t ++ txt " processor.";
   txt "func New(config Config) (*" ++ t ++ txt ", error) {"; txt "    return &" ++ t ++ txt "{config: config}, nil"; txt "}"; [];
   txt "// Config returns the " ++ t ++ txt " processor config.";
   txt "func (p *" ++ t ++ txt ") Config() Config {"; txt "    return p.config"; txt "}"; [];
   txt "func (p *" ++ t ++ txt ") String() string {"; txt "    return processor.ConfigString(processorName, p.config)"; txt "}"; []] ++
   unlines (if include then [[]; txt "func (p *" ++ t ++ txt ") Process(event processor.Event) error {"; txt "    // TODO: Implement this in process.go."; txt "    return nil"; txt "}"] else []) ++ nl :: []) as -> end.
  { unfold ln, unlines. destruct include; cbn [map concat]; do 6 (rewrite <- ?app_assoc; cbn [app]); reflexivity. }
  rewrite unlines_code by (repeat (apply List.Forall_cons; [free|]); apply List.Forall_nil).
  rewrite unlines_code by (destruct include; [repeat (apply List.Forall_cons; [free|])|]; apply List.Forall_nil).
  unfold tail_lines. destruct include; reflexivity.
Qed.
Lemma source_lines lib lic name imports p include : Forall (λ o, short_comment lib [tab] (o_desc o)) (p_conf p) → short_comment lib [] (p_desc p) →
  nl ∉ name → nl ∉ goTypeName name → Forall (nl ∉.) imports →
  Forall (λ o, good_name (o_name o) ∧ nl ∉ o_type o ∧ nl ∉ default_line lib o) (p_conf p) →
  ∃ src, source_text lib lic name imports p include = Some src ∧
    code_lines src = head_lines lic name imports ++ struct_lines (map field_line (p_conf p)) ++ [[]; txt "func (c *Config) InitDefaults() {"] ++
      map (default_line lib) (List.filter (λ o, bool_decide (o_default o ≠ None)) (p_conf p)) ++ [txt "}"] ++ tail_lines (goTypeName name) include.
Proof.
  intros Hs Hd Hn Hn' Hi Hg.
  destruct (fields_lines lib (p_conf p) Hs) as (t & Et & Hcode).
  { eapply Forall_impl; [exact Hg|]. cbn. tauto. }
  pose proof (description_exact lib [] (p_desc p) (not_elem_of_nil _) Hd) as He.
  pose proof (description_continues lib [] (p_desc p) _ (not_elem_of_nil _) Hd He) as Hc.
  unfold source_text. rewrite Et, He. set (c := join [nl] _) in *. clearbody c.
  eexists. split; [reflexivity|]. rewrite head_code by done. f_equal.
  unfold defaults_text. change (ln "}") with (txt "}" ++ [nl]). rewrite <- !app_assoc. cbn [app].
  rewrite Hcode by (try done; by apply nl_free_dec).
  rewrite <- selectDefaults_spec.
  match goal with |- ?l ++ ?r = struct_lines ?x ++ ?r' => assert (l = struct_lines x) as -> by (by destruct (p_conf p)) end. f_equal.
  change (nl :: ?x) with ([] ++ nl :: x) at 1. rewrite code_line by (try apply not_elem_of_nil; done). f_equal.
  unfold ln. rewrite <- !app_assoc. cbn [app]. rewrite comment_skipped by (try done; by apply nl_free_dec).
  rewrite defaults_lines; [| |by apply nl_free_dec|done].
  2: { rewrite selectDefaults_spec. apply Forall_forall. intros o Ho. apply elem_of_list_In, filter_In in Ho as [Ho _]. apply elem_of_list_In in Ho. rewrite Forall_forall in Hg. by apply Hg. }
  rewrite code_line by (try done; by apply nl_free_dec). f_equal. f_equal. f_equal. rewrite <- tail_code by done.
  change (nl :: ?x) with ([] ++ nl :: x) at 1. rewrite code_line by (try apply not_elem_of_nil; done). f_equal.
  change (txt "// ") with ([] ++ slashes ++ [space]).
  assert (([] ++ slashes ++ [space]) ++ c ++ nl :: tail_text name include = ([] ++ slashes ++ space :: c) ++ nl :: tail_text name include) as -> by done.
  rewrite code_lines_app, (comment_no_code [] []); [done|apply List.Forall_nil|apply not_elem_of_nil|apply List.Forall_nil|done].
Qed.
