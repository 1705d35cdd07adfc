(** * Facts about processInput. *)
From Verif Require Export Cmd.
From Coq Require Import Lia.
Local Open Scope Z_scope.

(** ** Lines *)
(** The lines of a text: each ended by a newline except possibly the last. *)
Inductive text_lines : list ascii → list (list ascii) → Prop :=
| tl_end : text_lines [] []
| tl_last l : l ≠ [] → nl ∉ l → text_lines l [l]
| tl_line l rest ls : nl ∉ l → text_lines rest ls → text_lines (l ++ nl :: rest) (l :: ls).

Lemma split_at {A} (x : A) (l l' rest rest' : list A) :
  x ∉ l → x ∉ l' → l ++ x :: rest = l' ++ x :: rest' → l = l' ∧ rest = rest'.
Proof.
  revert l'. induction l as [|c l IH]; intros [|d l'] H H' E; cbn [app] in E.
  - by injection E as E.
  - injection E as E1 E2. exfalso. apply H'. rewrite E1. apply elem_of_cons. by left.
  - injection E as E1 E2. exfalso. apply H. rewrite E1. apply elem_of_cons. by left.
  - injection E as E1 E2. apply not_elem_of_cons in H as [_ H], H' as [_ H']. subst d.
    destruct (IH l' H H' E2) as [-> ->]. done.
Qed.
Lemma in_middle {A} (x : A) l rest : x ∈ l ++ x :: rest.
Proof. apply elem_of_app. right. apply elem_of_cons. by left. Qed.
Lemma text_lines_unique bytes ls : text_lines bytes ls → ∀ ls', text_lines bytes ls' → ls = ls'.
Proof.
  induction 1 as [|l Hne Hl|l rest ls Hl _ IH]; intros ls' H'.
  - inversion H' as [E|l Hne Hl E|l rest ls2 Hl H2 E]; [reflexivity|congruence|]. by destruct l.
  - inversion H' as [E|l2 Hne2 Hl2 E|l2 rest ls2 Hl2 H2 E]; [congruence|reflexivity|]. exfalso. apply Hl. rewrite <- E. apply in_middle.
  - inversion H' as [E|l2 Hne2 Hl2 E|l2 rest2 ls2 Hl2 H2 E].
    + by destruct l.
    + exfalso. apply Hl2. apply in_middle.
    + apply split_at in E as [-> ->]; [|assumption|assumption]. f_equal. by apply IH.
Qed.
Lemma text_lines_total bytes : ∃ ls, text_lines bytes ls.
Proof.
  remember (length bytes) as n eqn:Hn. revert bytes Hn. induction (lt_wf n) as [n _ IH]. intros bytes ->.
  destruct (decide (nl ∈ bytes)) as [Hin|Hni].
  - apply elem_of_list_split_l in Hin as (l & rest & -> & Hl).
    destruct (IH (length rest)) with (bytes := rest) as [ls Hls]; [rewrite app_length; simpl; lia|done|].
    exists (l :: ls). by apply tl_line.
  - destruct bytes as [|c l]; [exists []; constructor|]. exists [c :: l]. by apply tl_last.
Qed.
Lemma scan_prefix l : ∀ rest cur n, nl ∉ l → scan (l ++ rest) cur n = scan rest (rev l ++ cur) (n + Z.of_nat (length l)).
Proof.
  induction l as [|c l IH]; intros rest cur n Hl; [simpl; f_equal; lia|].
  apply not_elem_of_cons in Hl as [Hc Hl]. cbn [scan app]. destruct (Ascii.eqb_spec c nl); [congruence|].
  rewrite IH by done. simpl. rewrite <- app_assoc. simpl. f_equal. lia.
Qed.
Fixpoint upto_long (ls : list (list ascii)) : list (list ascii) :=
  match ls with
  | [] => []
  | l :: ls' => if decide (Z.of_nat (length l) < maxLine) then l :: upto_long ls' else []
  end.
Lemma scan_lines bytes ls : text_lines bytes ls →
  scan bytes [] 0 = (map dropCR (upto_long ls), bool_decide (Exists (λ l, maxLine ≤ Z.of_nat (length l)) ls)).
Proof.
  induction 1 as [|l Hne Hl|l rest ls Hl _ IH].
  - rewrite bool_decide_eq_false_2 by (intros HE; inversion HE). done.
  - rewrite <- (app_nil_r l) at 1. rewrite scan_prefix by done. cbn [scan].
    destruct (Z.eqb_spec (0 + Z.of_nat (length l)) 0); [destruct l; [done|simpl in *; lia]|].
    rewrite app_nil_r, rev_involutive. cbn [upto_long]. destruct (Z.leb_spec maxLine (0 + Z.of_nat (length l))).
    + rewrite decide_False by lia. rewrite bool_decide_eq_true_2; [done|]. left. lia.
    + rewrite decide_True by lia. rewrite bool_decide_eq_false_2; [done|]. intros HE. inversion HE as [? ? HE1|? ? HE1]; subst; [lia|inversion HE1].
  - rewrite scan_prefix by done. cbn [scan]. destruct (Ascii.eqb_spec nl nl); [|done]. cbn [upto_long].
    destruct (Z.leb_spec maxLine (0 + Z.of_nat (length l))).
    + rewrite decide_False by lia. rewrite bool_decide_eq_true_2; [done|]. left. lia.
    + rewrite decide_True by lia. rewrite IH, app_nil_r, rev_involutive. f_equal.
      apply bool_decide_ext. rewrite Exists_cons. split; [tauto|]. intros [?|?]; [lia|done].
Qed.

(** ** Trimming *)
(** The characters with the Unicode property White_Space: tab to carriage return,
    space, next line, no-break space, Ogham space mark, en quad to hair space, line and
    paragraph separators, narrow no-break space, medium mathematical space, ideographic
    space. *)
Definition white (c : Z) : Prop :=
  9 ≤ c ≤ 13 ∨ c = 0x20 ∨ c = 0x85 ∨ c = 0xA0 ∨ c = 0x1680 ∨ 0x2000 ≤ c ≤ 0x200A ∨ c = 0x2028 ∨ c = 0x2029 ∨
  c = 0x202F ∨ c = 0x205F ∨ c = 0x3000.
Definition white_space (p : list ascii) : Prop := ∃ c, white c ∧ p = utf8_encode c.
(** [t] is [s] without the white space (in UTF-8) at its ends. *)
Definition stripped (s t : list ascii) : Prop :=
  (∃ a b, Forall white_space a ∧ Forall white_space b ∧ s = concat a ++ t ++ concat b) ∧
  (∀ p r, white_space p → t ≠ p ++ r) ∧ (∀ p r, white_space p → t ≠ r ++ p).

(** The same, the characters being those listed in the model. *)
Definition trimmed (s t : list ascii) : Prop :=
  (∃ a b, Forall (.∈ spaces) a ∧ Forall (.∈ spaces) b ∧ s = concat a ++ t ++ concat b) ∧
  (∀ p r, p ∈ spaces → t ≠ p ++ r) ∧ (∀ p r, p ∈ spaces → t ≠ r ++ p).

Lemma strip1_spec p : ∀ l r, strip1 p l = Some r ↔ l = p ++ r.
Proof.
  induction p as [|c p IH]; intros l r; cbn [strip1 app].
  - split; congruence.
  - destruct l as [|d l]; [done|]. destruct (Ascii.eqb_spec c d) as [->|Hne].
    + rewrite IH. split; congruence.
    + split; [done|]. congruence.
Qed.
Lemma strip_any_some ps l r : strip_any ps l = Some r → ∃ p, p ∈ ps ∧ l = p ++ r.
Proof.
  induction ps as [|p ps IH]; cbn [strip_any]; [done|].
  destruct (strip1 p l) as [r'|] eqn:E.
  - intros [= <-]. apply strip1_spec in E. exists p. split; [left|done].
  - intros H. destruct (IH H) as (p' & ? & ?). exists p'. split; [by right|done].
Qed.
Lemma strip_any_none ps l : strip_any ps l = None ↔ ∀ p r, p ∈ ps → l ≠ p ++ r.
Proof.
  induction ps as [|p ps IH]; cbn [strip_any].
  - split; [|done]. intros _ p r Hp. by apply elem_of_nil in Hp.
  - destruct (strip1 p l) as [r'|] eqn:E.
    + split; [done|]. intros H. apply strip1_spec in E. by destruct (H p r'); [left|].
    + rewrite IH. split.
      * intros H p' r' [->|Hp]%elem_of_cons; [|by apply H]. intros Hl. apply strip1_spec in Hl. congruence.
      * intros H p' r' Hp. apply H. by right.
Qed.
(** No space is the start of another, in either direction. *)
Lemma strip_space p u : p ∈ spaces → strip_any spaces (p ++ u) = Some u.
Proof.
  revert p. apply Forall_forall. unfold spaces, space_runes. cbn [map].
  repeat (apply List.Forall_cons; [vm_compute; reflexivity|]). apply List.Forall_nil.
Qed.
Lemma strip_space_rev p u : p ∈ map (@rev ascii) spaces → strip_any (map (@rev ascii) spaces) (p ++ u) = Some u.
Proof.
  revert p. apply Forall_forall. unfold spaces, space_runes. cbn [map].
  repeat (apply List.Forall_cons; [vm_compute; reflexivity|]). apply List.Forall_nil.
Qed.
Lemma spaces_nonempty : Forall (λ p, p ≠ []) spaces ∧ Forall (λ p, p ≠ []) (map (@rev ascii) spaces).
Proof. split; apply (bool_decide_eq_true_1 _); vm_compute; reflexivity. Qed.

Section strip.
  Context (ps : list (list ascii)).
  Context (Hone : ∀ p u, p ∈ ps → strip_any ps (p ++ u) = Some u) (Hne : Forall (λ p, p ≠ []) ps).
  Lemma strip_concat a u : Forall (.∈ ps) a → (∀ p r, p ∈ ps → u ≠ p ++ r) →
    ∀ fuel, (length (concat a ++ u) ≤ fuel)%nat → strip ps fuel (concat a ++ u) = u.
  Proof.
    intros Ha Hu. induction Ha as [|p a Hp _ IH]; intros fuel Hf.
    - simpl. apply strip_any_none in Hu. destruct fuel; simpl; [done|]. by rewrite Hu.
    - simpl in *. rewrite <- app_assoc in *. pose proof (proj1 (Forall_forall _ _) Hne _ Hp) as Hpn. simpl in Hpn.
      rewrite !app_length in Hf. destruct p as [|c p]; [done|]. simpl in Hf. destruct fuel as [|fuel]; [lia|].
      cbn [strip]. rewrite Hone by done. apply IH. rewrite app_length. lia.
  Qed.
  Lemma strip_split fuel : ∀ l, (length l ≤ fuel)%nat → ∃ a, Forall (.∈ ps) a ∧ l = concat a ++ strip ps fuel l ∧
    ∀ p r, p ∈ ps → strip ps fuel l ≠ p ++ r.
  Proof.
    induction fuel as [|fuel IH]; intros l Hl; cbn [strip].
    - destruct l; [|simpl in Hl; lia]. exists []. split_and!; [constructor|done|]. intros p r Hp H.
      pose proof (proj1 (Forall_forall _ _) Hne _ Hp) as Hpn. by destruct p.
    - destruct (strip_any ps l) as [r|] eqn:E.
      + apply strip_any_some in E as (p & Hp & ->).
        pose proof (proj1 (Forall_forall _ _) Hne _ Hp) as Hpn. simpl in Hpn.
        destruct (IH r) as (a & Ha & Hr & Hn).
        { rewrite app_length in Hl. destruct p; [done|simpl in Hl; lia]. }
        exists (p :: a). split_and!; [by constructor| |done]. simpl. rewrite <- app_assoc. by rewrite <- Hr.
      + exists []. split_and!; [constructor|done|]. by apply strip_any_none.
  Qed.
End strip.

(** The first byte of a space never occurs later inside one. *)
Lemma space_cut p q x y : p ∈ spaces → q ∈ spaces → p = x ++ y → x ≠ [] → y ≠ [] → ∀ u v, y ++ u ≠ q ++ v.
Proof.
  intros Hp Hq -> Hx Hy u v H. destruct y as [|c y]; [done|]. destruct x as [|d x]; [done|].
  assert (Forall (λ p : list ascii, Forall (λ c, Forall (λ q : list ascii, Some c ≠ head q) spaces) (tail p)) spaces) as Hall.
  { apply (bool_decide_eq_true_1 _). vm_compute. reflexivity. }
  rewrite Forall_forall in Hall. specialize (Hall _ Hp). cbn [tail app] in Hall.
  rewrite Forall_forall in Hall. specialize (Hall c ltac:(apply in_middle)).
  rewrite Forall_forall in Hall. specialize (Hall _ Hq). destruct q as [|c' q].
  - pose proof (proj1 (Forall_forall _ _) (proj1 spaces_nonempty) _ Hq) as Hn. done.
  - cbn in H, Hall. congruence.
Qed.
Lemma concat_rev (a : list (list ascii)) : rev (concat a) = concat (map (@rev ascii) (rev a)).
Proof.
  induction a as [|x a IH]; [done|]. simpl. rewrite rev_app_distr, IH, map_app, concat_app. simpl. by rewrite app_nil_r.
Qed.
Lemma rev_spaces a : Forall (.∈ spaces) a → Forall (.∈ map (@rev ascii) spaces) (map (@rev ascii) (rev a)).
Proof.
  intros H. apply Forall_forall. intros x Hx. apply elem_of_list_fmap in Hx as (y & -> & Hy).
  apply elem_of_list_fmap. exists y. split; [done|]. rewrite Forall_forall in H. apply H.
  apply elem_of_list_In, in_rev. by apply elem_of_list_In in Hy.
Qed.
Lemma starts_nothing (p r : list ascii) : p ∈ spaces → [] ≠ p ++ r.
Proof. intros Hp. pose proof (proj1 (Forall_forall _ _) (proj1 spaces_nonempty) _ Hp) as Hn. by destruct p. Qed.
Lemma trim_trimmed s : trimmed s (trim s).
Proof.
  unfold trim.
  destruct (strip_split spaces (proj1 spaces_nonempty) (length s) s (Nat.le_refl _)) as (a & Ha & Hs & Hn).
  set (u := strip spaces (length s) s) in *.
  destruct (strip_split _ (proj2 spaces_nonempty) (length u) (rev u)) as (b & Hb & Hu & Hn2).
  { by rewrite rev_length. }
  set (v := strip (map (@rev ascii) spaces) (length u) (rev u)) in *.
  assert (u = rev v ++ concat (map (@rev ascii) (rev b))) as Hu'.
  { rewrite <- (rev_involutive u), Hu at 1. by rewrite rev_app_distr, concat_rev. }
  assert (Forall (.∈ spaces) (map (@rev ascii) (rev b))) as Hb'.
  { apply Forall_forall. intros x Hx. apply elem_of_list_fmap in Hx as (y & -> & Hy).
    rewrite Forall_forall in Hb. specialize (Hb y). apply elem_of_list_In, in_rev, elem_of_list_In in Hy.
    specialize (Hb Hy). apply elem_of_list_fmap in Hb as (z & -> & Hz). by rewrite rev_involutive. }
  split; [|split].
  - exists a, (map (@rev ascii) (rev b)). split_and!; [done|done|]. by rewrite <- Hu'.
  - intros p r Hp Hv. apply (Hn p (r ++ concat (map (@rev ascii) (rev b)))); [done|]. by rewrite Hu', Hv, <- app_assoc.
  - intros p r Hp Hv. apply (Hn2 (rev p) (rev r)); [by apply elem_of_list_fmap; exists p|].
    by rewrite <- rev_app_distr, <- Hv, rev_involutive.
Qed.
Lemma trimmed_trim s t : trimmed s t → trim s = t.
Proof.
  intros ((a & b & Ha & Hb & ->) & Hl & Hr). unfold trim.
  destruct t as [|c t].
  { rewrite app_nil_l, <- concat_app. assert (Forall (.∈ spaces) (a ++ b)) as Hab by (by apply Forall_app).
    pose proof (strip_concat _ strip_space (proj1 spaces_nonempty) (a ++ b) [] Hab starts_nothing) as H.
    rewrite app_nil_r in H. by rewrite H by done. }
  assert (strip spaces (length (concat a ++ (c :: t) ++ concat b)) (concat a ++ (c :: t) ++ concat b) = (c :: t) ++ concat b) as ->.
  { apply (strip_concat _ strip_space (proj1 spaces_nonempty)); [done| |done].
    intros p r Hp Hpr. set (x := c :: t) in *. assert (x ≠ []) as Hx by done. clearbody x.
    apply app_eq_inv in Hpr as [(k & -> & Hpr)|(k & -> & Hpr)]; [by eapply Hl|].
    destruct k as [|k0 k]; [rewrite app_nil_r in *; apply (Hl x [] Hp); by rewrite app_nil_r|].
    destruct b as [|q b]; [done|]. apply Forall_cons in Hb as [Hq _]. cbn [concat] in Hpr.
    refine (space_cut _ q x (k0 :: k) Hp Hq eq_refl Hx _ r (concat b) _); done. }
  set (x := c :: t) in *. clearbody x.
  rewrite rev_app_distr, concat_rev.
  rewrite (strip_concat _ strip_space_rev (proj2 spaces_nonempty) _ (rev x) (rev_spaces _ Hb)).
  - apply rev_involutive.
  - intros p r Hp Hx. apply elem_of_list_fmap in Hp as (p0 & -> & Hp). apply (Hr p0 (rev r) Hp).
    by rewrite <- (rev_involutive x), Hx, rev_app_distr, rev_involutive.
  - rewrite !app_length, rev_length, <- concat_rev, rev_length. lia.
Qed.
Lemma white_spaces p : p ∈ spaces ↔ white_space p.
Proof.
  unfold spaces, white_space. split.
  - intros (c & -> & Hc)%elem_of_list_fmap. exists c. split; [|done].
    unfold space_runes in Hc. unfold white. rewrite !elem_of_cons, elem_of_nil in Hc. lia.
  - intros (c & Hc & ->). apply elem_of_list_fmap. exists c. split; [done|]. unfold white in Hc.
    assert (c ∈ [9; 10; 11; 12; 13; 0x20; 0x85; 0xA0; 0x1680; 0x2000; 0x2001; 0x2002; 0x2003; 0x2004; 0x2005; 0x2006;
      0x2007; 0x2008; 0x2009; 0x200A; 0x2028; 0x2029; 0x202F; 0x205F; 0x3000]) as Hin.
    { rewrite !elem_of_cons. lia. }
    unfold space_runes. rewrite !elem_of_cons in Hin |- *. tauto.
Qed.
Lemma stripped_trimmed s t : stripped s t ↔ trimmed s t.
Proof.
  unfold stripped, trimmed. assert (∀ a, Forall white_space a ↔ Forall (.∈ spaces) a) as Hf.
  { intros a. split; intros H; (eapply Forall_impl; [exact H|]); intros p; simpl; rewrite white_spaces; auto. }
  split; intros ((a & b & Ha & Hb & Hs) & H1 & H2).
  - split_and!; [exists a, b; rewrite <- !Hf; auto| |]; intros p r Hp; [apply H1|apply H2]; by apply white_spaces.
  - split_and!; [exists a, b; rewrite !Hf; auto| |]; intros p r Hp; [apply H1|apply H2]; by apply white_spaces.
Qed.
Lemma trim_spec s t : trim s = t ↔ trimmed s t.
Proof. split; [intros <-; apply trim_trimmed|apply trimmed_trim]. Qed.
Lemma trim_dropCR l : trim (dropCR l) = trim l.
Proof.
  symmetry. apply trimmed_trim. unfold dropCR. destruct (rev l) as [|c r] eqn:E; [apply trim_trimmed|].
  destruct (Ascii.eqb_spec c cr) as [->|]; [|apply trim_trimmed].
  assert (l = rev r ++ [cr]) as -> by (rewrite <- (rev_involutive l), E; done).
  destruct (trim_trimmed (rev r)) as ((a & b & Ha & Hb & Hs) & H1 & H2).
  split; [|done]. exists a, (b ++ [[cr]]). split_and!; [done| |].
  - apply Forall_app. split; [done|]. constructor; [|constructor]. apply (bool_decide_eq_true_1 _). vm_compute. reflexivity.
  - rewrite concat_app. simpl. rewrite Hs at 1. by rewrite <- !app_assoc.
Qed.
