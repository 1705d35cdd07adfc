(** * The reader follows the grammar: white space, strings and numbers *)
From Verif Require Export JsonGrammar JsonEvent.
From Coq Require Import Lia.
Local Open Scope Z_scope.

(** ** White space *)
Lemma blank_ws c : blank c ↔ is_ws c = true.
Proof.
  unfold blank, is_ws. rewrite !elem_of_cons, elem_of_nil, !orb_true_iff, !Z.eqb_eq. naive_solver.
Qed.
Lemma skip_ws_sound l : ∃ w, l = w ++ skip_ws l ∧ blanks w.
Proof.
  induction l as [|c l IH]; [exists []; split; [done|constructor]|]. simpl. destruct (is_ws c) eqn:E; [|exists []; split; [done|constructor]].
  destruct IH as (w & Hw & Hb). exists (c :: w). split; [simpl; by f_equal|]. constructor; [by apply blank_ws|done].
Qed.
Definition no_ws (l : list ascii) : Prop := match l with [] => True | c :: _ => is_ws c = false end.
Lemma skip_ws_complete w l : blanks w → no_ws l → skip_ws (w ++ l) = l.
Proof.
  induction 1 as [|c w Hc Hw IH]; intros Hl.
  - destruct l as [|c l]; [done|]. simpl in *. by rewrite Hl.
  - simpl. apply blank_ws in Hc. rewrite Hc. by apply IH.
Qed.

(** ** Escapes *)
Lemma hexval_iff c v : hexval c = Some v ↔ hex c v.
Proof.
  unfold hexval. destruct (inr 48 57 c) eqn:E1; [|destruct (inr 97 102 c) eqn:E2; [|destruct (inr 65 70 c) eqn:E3]];
    rewrite ?inr_spec, ?inr_false in *.
  - split; [intros [= <-]; by constructor|]. intros H. inversion H; subst; f_equal; lia.
  - split.
    + intros [= <-]. replace (bz c - 87) with (bz c - 0x61 + 10) by lia. by apply hex_lower.
    + intros H. inversion H; subst; f_equal; lia.
  - split.
    + intros [= <-]. replace (bz c - 55) with (bz c - 0x41 + 10) by lia. by apply hex_upper.
    + intros H. inversion H; subst; f_equal; lia.
  - split; [done|]. intros H. inversion H; subst; lia.
Qed.
Lemma hex4_iff a b c d n : hex4 a b c d = Some n ↔
  ∃ x y z w, hex a x ∧ hex b y ∧ hex c z ∧ hex d w ∧ n = ((x * 16 + y) * 16 + z) * 16 + w.
Proof.
  unfold hex4. split.
  - destruct (hexval a) eqn:Ea; [|done]. destruct (hexval b) eqn:Eb; [|done].
    destruct (hexval c) eqn:Ec; [|done]. destruct (hexval d) eqn:Ed; [|done]. intros [= <-].
    apply hexval_iff in Ea, Eb, Ec, Ed. eexists _, _, _, _. split_and!; try done. lia.
  - intros (x & y & z & w & H1 & H2 & H3 & H4 & ->). apply hexval_iff in H1, H2, H3, H4.
    rewrite H1, H2, H3, H4. f_equal. lia.
Qed.
Lemma unit_iff raw n : unit_escape raw n ↔ ∃ a b c d, raw = [bs; "u"%char; a; b; c; d] ∧ hex4 a b c d = Some n.
Proof.
  split.
  - intros (a & b & c & d & x & y & z & w & H1 & H2 & H3 & H4 & -> & Hn). exists a, b, c, d. split; [done|].
    apply hex4_iff. by exists x, y, z, w.
  - intros (a & b & c & d & -> & H). apply hex4_iff in H as (x & y & z & w & H1 & H2 & H3 & H4 & Hn).
    exists a, b, c, d, x, y, z, w. by split_and!.
Qed.
Lemma hexval_not_q c v : hexval c = Some v → c ≠ q.
Proof. intros H ->. vm_compute in H. done. Qed.
Lemma short_iff c y : simple_escape c = Some y ↔ ∃ x, (c, x) ∈ short_escapes ∧ y = zb x.
Proof.
  split.
  - unfold simple_escape. intros H.
    repeat match type of H with (if Ascii.eqb ?a ?b then _ else _) = _ =>
      destruct (Ascii.eqb_spec a b) as [->|]; [injection H as <-|] end; [..|done].
    1: exists 0x22. 2: exists 0x5C. 3: exists 0x2F. 4: exists 0x08. 5: exists 0x0C. 6: exists 0x0A. 7: exists 0x0D. 8: exists 0x09.
    all: split; [unfold short_escapes, q, bs; rewrite !elem_of_cons; tauto|reflexivity].
  - intros (x & H & ->). unfold short_escapes in H.
    repeat (apply elem_of_cons in H as [H|H]; [injection H as -> ->; reflexivity|]). by apply elem_of_nil in H.
Qed.

(** ** UTF-8 *)
(** The encoded character a text begins with. *)
Definition seq_at (l : list ascii) : option (list ascii * list ascii) :=
  match l with
  | [] => None
  | c :: l1 =>
      if utf8_1 c then Some ([c], l1)
      else
        match l1 with
        | [] => None
        | b1 :: l2 =>
            if utf8_2 c b1 then Some ([c; b1], l2)
            else
              match l2 with
              | [] => None
              | b2 :: l3 =>
                  if utf8_3 c b1 b2 then Some ([c; b1; b2], l3)
                  else
                    match l3 with
                    | [] => None
                    | b3 :: l4 => if utf8_4 c b1 b2 b3 then Some ([c; b1; b2; b3], l4) else None
                    end
              end
        end
  end.
Lemma encode_cases c : scalar c →
  (∃ a, utf8_encode c = [a] ∧ utf8_1 a = true ∧ c = bz a ∧ c < 0x80) ∨
  (∃ a b, utf8_encode c = [a; b] ∧ utf8_1 a = false ∧ utf8_2 a b = true ∧ 0x80 ≤ c) ∨
  (∃ a b d, utf8_encode c = [a; b; d] ∧ utf8_1 a = false ∧ utf8_2 a b = false ∧ utf8_3 a b d = true ∧ 0x80 ≤ c) ∨
  (∃ a b d e, utf8_encode c = [a; b; d; e] ∧ utf8_1 a = false ∧ utf8_2 a b = false ∧ utf8_3 a b d = false ∧ utf8_4 a b d e = true ∧ 0x80 ≤ c).
Proof.
  intros Hc. unfold utf8_encode.
  pose proof (Z.div_mod c 64 ltac:(lia)) as D1. pose proof (Z.mod_pos_bound c 64 ltac:(lia)) as M1.
  pose proof (Z.div_mod (c / 64) 64 ltac:(lia)) as D2. pose proof (Z.mod_pos_bound (c / 64) 64 ltac:(lia)) as M2.
  pose proof (Z.div_mod (c / 4096) 64 ltac:(lia)) as D3. pose proof (Z.mod_pos_bound (c / 4096) 64 ltac:(lia)) as M3.
  assert (c / 64 / 64 = c / 4096) as Q1 by (rewrite Z.div_div by lia; done).
  assert (c / 4096 / 64 = c / 262144) as Q2 by (rewrite Z.div_div by lia; done).
  rewrite Q1 in D2. rewrite Q2 in D3.
  destruct (Z.ltb_spec c 0x80); [|destruct (Z.ltb_spec c 0x800); [|destruct (Z.ltb_spec c 0x10000)]].
  - left. exists (zb c). assert (bz (zb c) = c) as E by (apply bz_zb; unfold scalar in *; lia).
    split_and!; [done| |done|done]. apply inr_spec. rewrite E. unfold scalar in *. lia.
  - right; left. eexists _, _. split_and!; [reflexivity| | |done].
    + apply inr_false. rewrite bz_zb; lia.
    + unfold utf8_2. rewrite andb_true_iff, !inr_spec, !bz_zb; lia.
  - right; right; left. eexists _, _, _. split_and!; [reflexivity| | | |lia].
    + apply inr_false. rewrite bz_zb; lia.
    + unfold utf8_2. apply andb_false_iff. left. apply inr_false. rewrite bz_zb; lia.
    + unfold utf8_3. rewrite !andb_true_iff, !orb_true_iff, !andb_true_iff, !inr_spec, !bz_zb by lia. unfold scalar in *. lia.
  - right; right; right. assert (c < 0x110000) by (unfold scalar in *; lia). eexists _, _, _, _. split_and!; [reflexivity| | | | |lia].
    + apply inr_false. rewrite bz_zb; lia.
    + unfold utf8_2. apply andb_false_iff. left. apply inr_false. rewrite bz_zb; lia.
    + unfold utf8_3. apply andb_false_iff. left. rewrite !orb_false_iff, !andb_false_iff, !inr_false, !bz_zb by lia. lia.
    + unfold utf8_4. rewrite !andb_true_iff, !orb_true_iff, !andb_true_iff, !inr_spec, !bz_zb by lia. lia.
Qed.
Lemma seq_at_encode c l : scalar c → seq_at (utf8_encode c ++ l) = Some (utf8_encode c, l).
Proof.
  intros Hc. destruct (encode_cases c Hc) as [(a & -> & E1 & _)|[(a & b & -> & E1 & E2 & _)|[(a & b & d & -> & E1 & E2 & E3 & _)|(a & b & d & e & -> & E1 & E2 & E3 & E4 & _)]]];
    simpl; rewrite E1, ?E2, ?E3, ?E4; done.
Qed.
Lemma seq_at_some l p l' : seq_at l = Some (p, l') → ∃ c, scalar c ∧ p = utf8_encode c ∧ l = p ++ l'.
Proof.
  destruct l as [|b0 l1]; [done|]. simpl. destruct (utf8_1 b0) eqn:E1.
  { intros [= <- <-]. destruct (utf8_1_enc _ E1) as (c & Hc & E). by exists c. }
  destruct l1 as [|b1 l2]; [done|]. destruct (utf8_2 b0 b1) eqn:E2.
  { intros [= <- <-]. destruct (utf8_2_enc _ _ E2) as (c & Hc & E). by exists c. }
  destruct l2 as [|b2 l3]; [done|]. destruct (utf8_3 b0 b1 b2) eqn:E3.
  { intros [= <- <-]. destruct (utf8_3_enc _ _ _ E3) as (c & Hc & E). by exists c. }
  destruct l3 as [|b3 l4]; [done|]. destruct (utf8_4 b0 b1 b2 b3) eqn:E4; [|done].
  intros [= <- <-]. destruct (utf8_4_enc _ _ _ _ E4) as (c & Hc & E). by exists c.
Qed.
Lemma seq_at_none l : seq_at l = None ↔ ∀ c l', scalar c → l ≠ utf8_encode c ++ l'.
Proof.
  split.
  - intros H c l' Hc ->. by rewrite seq_at_encode in H.
  - intros H. destruct (seq_at l) as [[p l']|] eqn:E; [|done]. apply seq_at_some in E as (c & Hc & -> & ->). by destruct (H c l' Hc).
Qed.
(** A quote behind a text does not complete a character. *)
Lemma seq_at_quote b l r : b ≠ q → seq_at (b :: l ++ q :: r) = None ↔ seq_at (b :: l) = None.
Proof.
  intros Hb. rewrite !seq_at_none. split; intros H c l' Hc E.
  - apply (H c (l' ++ q :: r) Hc). rewrite app_assoc, <- E. done.
  - destruct (encode_cases c Hc) as [(a & Ea & E1 & _)|Hlong].
    + rewrite Ea in E. injection E as <- _. apply (H c l Hc). by rewrite Ea.
    + assert (∀ x, x ∈ utf8_encode c → x ≠ q) as Hnq.
      { assert (utf8_1 q = true) as Q1 by reflexivity.
        assert (∀ lo hi, 128 ≤ lo → inr lo hi q = true → False) as Hq.
        { intros lo hi Hlo Hi. apply inr_spec in Hi. change (bz q) with 34 in Hi. lia. }
        intros x Hx ->. revert Hx.
        destruct Hlong as [(a & b' & -> & E1 & E2 & _)|[(a & b' & d & -> & E1 & E2 & E3 & _)|(a & b' & d & e & -> & E1 & E2 & E3 & E4 & _)]];
          intros Hx; repeat (apply elem_of_cons in Hx as [Hx|Hx]; [subst; try congruence|]); try (by apply elem_of_nil in Hx).
        - unfold utf8_2 in E2. apply andb_true_iff in E2 as [_ E2]. by apply Hq in E2.
        - unfold utf8_3 in E3. apply andb_true_iff in E3 as [E3 _]. rewrite !orb_true_iff, !andb_true_iff in E3.
          destruct E3 as [[[[_ E3]|[_ E3]]|[_ E3]]|[_ E3]]; by apply Hq in E3.
        - unfold utf8_3 in E3. apply andb_true_iff in E3 as [_ E3]. by apply Hq in E3.
        - unfold utf8_4 in E4. rewrite !andb_true_iff, !orb_true_iff, !andb_true_iff in E4.
          destruct E4 as [[[[[_ E4]|[_ E4]]|[_ E4]] _] _]; by apply Hq in E4.
        - unfold utf8_4 in E4. rewrite !andb_true_iff in E4. destruct E4 as [[_ E4] _]. by apply Hq in E4.
        - unfold utf8_4 in E4. rewrite !andb_true_iff in E4. destruct E4 as [_ E4]. by apply Hq in E4. }
      assert (∀ (a : list ascii) p l', a ++ q :: r = p ++ l' → (∀ x, x ∈ p → x ≠ q) → ∃ t, a = p ++ t) as Hpre.
      { clear. induction a as [|y a IH]; intros p l' E Hp.
        - destruct p as [|z p]; [by exists []|]. injection E as <- _. exfalso. apply (Hp q); [left|done].
        - destruct p as [|z p]; [by exists (y :: a)|]. injection E as -> E. apply IH in E as [t ->]; [by exists t|]. intros x Hx. apply Hp. by right. }
      change (b :: l ++ q :: r) with ((b :: l) ++ q :: r) in E.
      destruct (Hpre _ _ _ E Hnq) as [t Ht]. by apply (H c t Hc).
Qed.

(** ** Strings *)
Lemma parse_str_seq c l1 : c ≠ q → c ≠ bs → 32 ≤ bz c →
  parse_str (c :: l1) = match seq_at (c :: l1) with
                        | Some (p, l') => pcons p (parse_str l')
                        | None => pcons runeError (parse_str l1)
                        end.
Proof.
  intros Hq Hb Hc. cbn [parse_str seq_at]. rewrite (proj2 (Ascii.eqb_neq c q)), (proj2 (Ascii.eqb_neq c bs)) by done.
  rewrite (proj2 (Z.ltb_ge _ _)) by lia. destruct (utf8_1 c); [done|].
  destruct l1 as [|b1 l2]; [done|]. destruct (utf8_2 c b1); [done|].
  destruct l2 as [|b2 l3]; [done|]. destruct (utf8_3 c b1 b2); [done|].
  destruct l3 as [|b3 l4]; [done|]. destruct (utf8_4 c b1 b2 b3); done.
Qed.
Lemma bz_of c n : 0 ≤ n < 256 → bz c = n → c = zb n.
Proof. intros Hn <-. by rewrite zb_bz. Qed.

(** The surrogate test of the code. *)
Definition pair_at (r : Z) (l3 : list ascii) : option (Z * list ascii) :=
  match l3 with
  | c1 :: c2 :: g1 :: g2 :: g3 :: g4 :: l4 =>
      if Ascii.eqb c1 bs && Ascii.eqb c2 "u"%char then
        match hex4 g1 g2 g3 g4 with
        | Some r2 => if (r <? 0xDC00) && (0xDC00 <=? r2) && (r2 <? 0xE000) then Some (r2, l4) else None
        | None => None
        end
      else None
  | _ => None
  end.
Lemma parse_str_unit h1 h2 h3 h4 l3 r : hex4 h1 h2 h3 h4 = Some r →
  parse_str (bs :: "u"%char :: h1 :: h2 :: h3 :: h4 :: l3) =
  if (0xD800 <=? r) && (r <? 0xE000) then
    match pair_at r l3 with
    | Some (r2, l4) => pcons (utf8_encode ((r - 0xD800) * 1024 + (r2 - 0xDC00) + 0x10000)) (parse_str l4)
    | None => pcons runeError (parse_str l3)
    end
  else pcons (utf8_encode r) (parse_str l3).
Proof.
  intros H. cbn [parse_str].
  change (Ascii.eqb bs q) with false. change (Ascii.eqb bs bs) with true.
  change (simple_escape "u"%char) with (@None ascii). change (Ascii.eqb "u"%char "u"%char) with true. cbn beta iota. rewrite H.
  destruct ((0xD800 <=? r) && (r <? 0xE000)); [|done].
  unfold pair_at. destruct l3 as [|c1 [|c2 [|g1 [|g2 [|g3 [|g4 l4]]]]]]; try done.
  destruct (Ascii.eqb c1 bs && Ascii.eqb c2 "u"%char); [|done].
  destruct (hex4 g1 g2 g3 g4); [|done]. by destruct ((r <? 0xDC00) && _ && _).
Qed.
Lemma pair_at_some r l3 r2 l4 : pair_at r l3 = Some (r2, l4) ↔
  r < 0xDC00 ∧ low r2 ∧ ∃ u2, l3 = u2 ++ l4 ∧ unit_escape u2 r2.
Proof.
  unfold pair_at, low. split.
  - intros H. destruct l3 as [|c1 [|c2 [|g1 [|g2 [|g3 [|g4 l5]]]]]]; try done.
    destruct (Ascii.eqb_spec c1 bs) as [->|]; [|done]. destruct (Ascii.eqb_spec c2 "u"%char) as [->|]; [|done].
    cbn [andb] in H. destruct (hex4 g1 g2 g3 g4) as [x|] eqn:E; [|done].
    destruct ((r <? 0xDC00) && (0xDC00 <=? x) && (x <? 0xE000)) eqn:Ec; [|done]. injection H as -> ->.
    rewrite !andb_true_iff, !Z.ltb_lt, Z.leb_le in Ec. split_and!; try lia.
    exists [bs; "u"%char; g1; g2; g3; g4]. split; [done|]. apply unit_iff. by exists g1, g2, g3, g4.
  - intros (H1 & H2 & u2 & -> & Hu). apply unit_iff in Hu as (a & b & c & d & -> & Hx). cbn [app].
    change (Ascii.eqb bs bs) with true. change (Ascii.eqb "u"%char "u"%char) with true. cbn [andb]. rewrite Hx.
    rewrite (proj2 (Z.ltb_lt r _)), (proj2 (Z.leb_le _ _)), (proj2 (Z.ltb_lt r2 _)) by lia. done.
Qed.
(** A quote behind a text does not complete an escape either. *)
Lemma pair_at_quote r raw rest x l4 : pair_at r (raw ++ q :: rest) = Some (x, l4) → ∃ raw', l4 = raw' ++ q :: rest ∧ pair_at r raw = Some (x, raw').
Proof.
  intros H. apply pair_at_some in H as (H1 & H2 & u2 & E & Hu). pose proof Hu as Hu0.
  apply unit_iff in Hu as (a & b & c & d & -> & Hx).
  assert (a ≠ q ∧ b ≠ q ∧ c ≠ q ∧ d ≠ q) as (Ha & Hb & Hc & Hd).
  { unfold hex4 in Hx. destruct (hexval a) eqn:Ea; [|done]. destruct (hexval b) eqn:Eb; [|done].
    destruct (hexval c) eqn:Ec; [|done]. destruct (hexval d) eqn:Ed; [|done]. split_and!; by eapply hexval_not_q. }
  destruct raw as [|c1 [|c2 [|g1 [|g2 [|g3 [|g4 raw']]]]]]; simpl in E; simplify_eq.
  exists raw'. split; [done|]. apply pair_at_some. split_and!; [done|exact H2|].
  eexists. split; [|exact Hu0]. done.
Qed.

Lemma parse_str_sound l s r : parse_str l = Some (s, r) → ∃ inner, l = inner ++ q :: r ∧ content inner s.
Proof.
  remember (length l) as n eqn:Hn. revert l Hn s r. induction (lt_wf n) as [n _ IH0]. intros l -> s r H.
  assert (∀ l', (length l' < length l)%nat → ∀ s r, parse_str l' = Some (s, r) → ∃ inner, l' = inner ++ q :: r ∧ content inner s) as IH
    by (intros l' Hl'; exact (IH0 _ Hl' l' eq_refl)).
  clear IH0. destruct l as [|c l1]; [done|].
  destruct (decide (c = q)) as [->|Hq].
  { cbn [parse_str] in H. change (Ascii.eqb q q) with true in H. injection H as <- <-. exists []. split; [done|constructor]. }
  destruct (decide (c = bs)) as [->|Hb].
  { destruct l1 as [|d l2]; [done|]. destruct (simple_escape d) as [x|] eqn:Es.
    - cbn [parse_str] in H. change (Ascii.eqb bs q) with false in H. change (Ascii.eqb bs bs) with true in H. cbn beta iota in H. rewrite Es in H.
      apply pcons_some in H as (s' & H & ->). apply IH in H as (inner & -> & Hc); [|simpl; lia].
      apply short_iff in Es as (y & Hy & ->). exists (bs :: d :: inner). split; [done|]. cbn [app]. by constructor.
    - destruct (decide (d = "u"%char)) as [->|Hu].
      2:{ cbn [parse_str] in H. change (Ascii.eqb bs q) with false in H. change (Ascii.eqb bs bs) with true in H. cbn beta iota in H.
          rewrite Es in H. rewrite (proj2 (Ascii.eqb_neq _ _)) in H by done. done. }
      destruct (match l2 with h1 :: h2 :: h3 :: h4 :: l3 => hex4 h1 h2 h3 h4 | _ => None end) as [x|] eqn:Ex.
      2:{ cbn [parse_str] in H. change (Ascii.eqb bs q) with false in H. change (Ascii.eqb bs bs) with true in H. cbn beta iota in H.
          rewrite Es in H. change (Ascii.eqb "u"%char "u"%char) with true in H. cbn beta iota in H.
          destruct l2 as [|h1 [|h2 [|h3 [|h4 l3]]]]; try done. by rewrite Ex in H. }
      destruct l2 as [|h1 [|h2 [|h3 [|h4 l3]]]]; try done.
      rewrite (parse_str_unit h1 h2 h3 h4 l3 x Ex) in H.
      assert (unit_escape [bs; "u"%char; h1; h2; h3; h4] x) as Hue by (apply unit_iff; eauto 10).
      destruct ((0xD800 <=? x) && (x <? 0xE000)) eqn:Esu.
      + rewrite andb_true_iff, Z.leb_le, Z.ltb_lt in Esu.
        destruct (pair_at x l3) as [[x2 l4]|] eqn:Ep.
        * apply pcons_some in H as (s' & H & ->). apply pair_at_some in Ep as (P1 & P2 & u2 & -> & P3).
          apply IH in H as (inner & -> & Hc); [|apply unit_iff in P3 as (? & ? & ? & ? & -> & _); simpl; lia].
          exists ([bs; "u"%char; h1; h2; h3; h4] ++ u2 ++ inner). split; [cbn [app]; by rewrite <- app_assoc|].
          replace ((x - 0xD800) * 1024 + (x2 - 0xDC00) + 0x10000) with (0x10000 + (x - 0xD800) * 1024 + (x2 - 0xDC00)) by lia.
          apply c_pair; try done. unfold high. lia.
        * apply pcons_some in H as (s' & H & ->).
          apply IH in H as (inner & -> & Hc); [|simpl; lia].
          exists ([bs; "u"%char; h1; h2; h3; h4] ++ inner). split; [done|]. rewrite <- runeError_enc.
          eapply c_lone; [exact Hue| | |exact Hc].
          -- unfold high, low. lia.
          -- intros [Hh (u2 & n2 & raw' & -> & Hu2 & Hl)]. rewrite <- app_assoc in Ep.
             assert (pair_at x (u2 ++ raw' ++ q :: r) = Some (n2, raw' ++ q :: r)) as Ep2.
             { apply pair_at_some. split_and!; [unfold high in Hh; lia|exact Hl|by exists u2]. }
             congruence.
      + apply pcons_some in H as (s' & H & ->). apply IH in H as (inner & -> & Hc); [|simpl; lia].
        exists ([bs; "u"%char; h1; h2; h3; h4] ++ inner). split; [done|].
        rewrite andb_false_iff, Z.leb_gt, Z.ltb_ge in Esu. apply c_unit; [done| | |done]; unfold high, low; lia. }
  destruct (Z.lt_ge_cases (bz c) 32) as [Hlt|Hge].
  { cbn [parse_str] in H. rewrite (proj2 (Ascii.eqb_neq c q)), (proj2 (Ascii.eqb_neq c bs)) in H by done.
    by rewrite (proj2 (Z.ltb_lt _ _)) in H by lia. }
  rewrite parse_str_seq in H by done. destruct (seq_at (c :: l1)) as [[p l']|] eqn:E.
  - apply pcons_some in H as (s' & H & ->). apply seq_at_some in E as (x & Hx & -> & E).
    assert (0x20 ≤ x ∧ x ≠ 0x22 ∧ x ≠ 0x5C) as (X1 & X2 & X3).
    { destruct (encode_cases x Hx) as [(a & Ea & _ & -> & _)|[(? & ? & _ & _ & _ & ?)|[(? & ? & ? & _ & _ & _ & _ & ?)|(? & ? & ? & ? & _ & _ & _ & _ & _ & ?)]]]; [|lia..].
      rewrite Ea in E. injection E as -> _. split_and!; [lia| |]; intros E; [apply Hq|apply Hb]; apply (bz_inj a); exact E. }
    apply IH in H as (inner & -> & Hc).
    + exists (utf8_encode x ++ inner). split; [by rewrite E, app_assoc|]. by apply c_char.
    + rewrite E, app_length. assert (0 < length (utf8_encode x))%nat; [|lia].
      unfold utf8_encode. repeat (destruct (_ <? _)); simpl; lia.
  - apply pcons_some in H as (s' & H & ->). apply IH in H as (inner & -> & Hc); [|simpl; lia].
    exists (c :: inner). split; [done|]. rewrite <- runeError_enc. apply c_bad; [|done].
    apply (seq_at_quote c inner r Hq) in E. by apply seq_at_none.
Qed.
Lemma parse_str_complete inner s : content inner s → ∀ r, parse_str (inner ++ q :: r) = Some (s, r).
Proof.
  induction 1 as [|c raw s Hc C1 C2 C3 _ IH|c x raw s Hx _ IH|u n raw s Hu Hn1 Hn2 _ IH|u n u2 n2 raw s Hu Hh Hu2 Hl _ IH|u n raw s Hu Hn Hno _ IH|b raw s Hb _ IH];
    intros r.
  - done.
  - rewrite <- app_assoc. pose proof (seq_at_encode c (raw ++ q :: r) Hc) as Es.
    destruct (utf8_encode c) as [|b0 p] eqn:Ee.
    { unfold utf8_encode in Ee. repeat (destruct (_ <? _) in Ee; [done|]). done. }
    cbn [app] in *.
    assert (b0 ≠ q ∧ b0 ≠ bs ∧ 32 ≤ bz b0) as (B1 & B2 & B3).
    { destruct (encode_cases c Hc) as [(a & Ea & _ & E & _)|Hlong].
      - rewrite Ea in Ee. injection Ee as -> _. split_and!; [intros ->; apply C2; exact E|intros ->; apply C3; exact E|lia].
      - assert (utf8_1 b0 = false) as Hf.
        { destruct Hlong as [(? & ? & Ea & ? & _)|[(? & ? & ? & Ea & ? & _)|(? & ? & ? & ? & Ea & ? & _)]]; rewrite Ea in Ee; by injection Ee as -> _. }
        apply inr_false in Hf. pose proof (bz_range b0). split_and!; [| |lia]; intros ->; apply Hf; vm_compute; done. }
    rewrite parse_str_seq by done. rewrite Es, IH. done.
  - cbn [app parse_str]. change (Ascii.eqb bs q) with false. change (Ascii.eqb bs bs) with true. cbn beta iota.
    rewrite (proj2 (short_iff c (zb x))) by eauto. by rewrite IH.
  - apply unit_iff in Hu as (h1 & h2 & h3 & h4 & -> & Hx). cbn [app]. rewrite (parse_str_unit _ _ _ _ _ _ Hx), IH.
    assert ((0xD800 <=? n) && (n <? 0xE000) = false) as ->; [|done].
    apply andb_false_iff. rewrite Z.leb_gt, Z.ltb_ge. unfold high, low in *. lia.
  - apply unit_iff in Hu as (h1 & h2 & h3 & h4 & -> & Hx). cbn [app]. rewrite (parse_str_unit _ _ _ _ _ _ Hx).
    assert ((0xD800 <=? n) && (n <? 0xE000) = true) as ->.
    { apply andb_true_iff. rewrite Z.leb_le, Z.ltb_lt. unfold high, low in *. lia. }
    rewrite <- app_assoc. rewrite (proj2 (pair_at_some n (u2 ++ raw ++ q :: r) n2 (raw ++ q :: r))).
    + rewrite IH. cbn [pcons]. do 4 f_equal. lia.
    + split_and!; [unfold high in *; lia|exact Hl|by exists u2].
  - pose proof Hu as Hu0. apply unit_iff in Hu as (h1 & h2 & h3 & h4 & -> & Hx). cbn [app]. rewrite (parse_str_unit _ _ _ _ _ _ Hx).
    assert ((0xD800 <=? n) && (n <? 0xE000) = true) as ->.
    { apply andb_true_iff. rewrite Z.leb_le, Z.ltb_lt. unfold high, low in *. lia. }
    destruct (pair_at n (raw ++ q :: r)) as [[x2 l4]|] eqn:Ep.
    + exfalso. apply Hno. apply pair_at_quote in Ep as (raw' & -> & Ep). apply pair_at_some in Ep as (P1 & P2 & u2 & P3 & P4).
      split; [unfold high, low in *; lia|]. by exists u2, x2, raw'.
    + rewrite IH. done.
  - assert (seq_at (b :: raw) = None) as E by (by apply seq_at_none).
    assert (utf8_1 b = false) as Hf.
    { destruct (utf8_1 b) eqn:E1; [|done]. simpl in E. by rewrite E1 in E. }
    apply inr_false in Hf. pose proof (bz_range b).
    assert (b ≠ q ∧ b ≠ bs) as [B1 B2] by (split; intros ->; apply Hf; vm_compute; done).
    cbn [app]. rewrite parse_str_seq by (done || lia). rewrite (proj2 (seq_at_quote b raw r B1) E), IH. done.
Qed.

(** ** Numbers *)
Lemma decimals_all l : decimals l ↔ all_digits l.
Proof.
  unfold decimals, all_digits. split; intros H; (eapply Forall_impl; [exact H|]); intros c Hc; by apply inr_spec.
Qed.
Lemma decimal_acc l a : fold_left (λ a c, 10 * a + (bz c - 0x30)) l a = a * 10 ^ Z.of_nat (length l) + decimal_value l.
Proof.
  revert a. induction l as [|c l IH]; intros a; simpl fold_left; cbn [decimal_value length]; [change (10 ^ Z.of_nat 0) with 1; lia|].
  rewrite IH, Nat2Z.inj_succ, Z.pow_succ_r by lia. unfold digit_value. fold (bz c). ring.
Qed.
Lemma decimal_eq l : decimal l = decimal_value l.
Proof. unfold decimal. rewrite decimal_acc. lia. Qed.

Lemma span_digits_sound l ds r : span_digits l = (ds, r) → l = ds ++ r ∧ decimals ds.
Proof.
  revert ds r. induction l as [|c l IH]; intros ds r; simpl; [intros [= <- <-]; split; [done|constructor]|].
  destruct (is_digit c) eqn:E; [|intros [= <- <-]; split; [done|constructor]].
  destruct (span_digits l) as [d r'] eqn:Es. intros [= <- <-]. destruct (IH _ _ eq_refl) as [H1 H2].
  split; [simpl; by f_equal|]. constructor; [by apply inr_spec|done].
Qed.
Lemma char_eq c n : c = zb n → 0 ≤ n < 256 → bz c = n.
Proof. intros -> H. by apply bz_zb. Qed.
Lemma parse_num_sound l j r : parse_num l = Some (j, r) → ∃ raw neg m e, l = raw ++ r ∧ j = JNum neg m e ∧ numeral raw neg m e.
Proof.
  unfold parse_num. intros H.
  destruct (match l with c :: l1 => if Ascii.eqb c "-"%char then (true, l1) else (false, l) | [] => (false, []) end) as [neg l1] eqn:E0.
  assert (l = (if neg then chars "-" else []) ++ l1) as Hl.
  { destruct l as [|c t]; [by simplify_eq|]. destruct (Ascii.eqb_spec c "-"%char) as [->|]; by simplify_eq. }
  clear E0. destruct (parse_int l1) as [[ds l2]|] eqn:E1; [|done].
  assert (l1 = ds ++ l2 ∧ int_part ds) as [-> D1].
  { unfold parse_int in E1. destruct l1 as [|c t]; [done|]. destruct (Ascii.eqb_spec c "0"%char) as [->|Hc0].
    - simplify_eq. split; [done|]. by left.
    - destruct (span_digits (c :: t)) as [d r'] eqn:Es. apply span_digits_sound in Es as [E Hd].
      destruct d as [|d0 d]; [done|]. cbn [app] in E. simplify_eq. split; [done|]. right. exists d0, d. apply Forall_cons in Hd as [Hd0 Hd].
      split_and!; [done| |lia|done]. assert (bz d0 ≠ 0x30); [|lia]. intros E9. apply Hc0. apply bz_inj; change (bz "0"%char) with 48; assumption. }
  destruct (parse_frac l2) as [[fs l3]|] eqn:E2; [|done].
  assert (∃ raw, l2 = raw ++ l3 ∧ frac_part raw fs) as (fr & -> & D2).
  { unfold parse_frac in E2. destruct l2 as [|c t]; [simplify_eq; exists []; split; [done|by left]|]. destruct (Ascii.eqb_spec c "."%char) as [->|].
    - destruct (span_digits t) as [d r'] eqn:Es. apply span_digits_sound in Es as [-> Hd]. destruct d as [|d0 d]; simplify_eq.
      exists (chars "." ++ d0 :: d). split; [done|]. right. done.
    - simplify_eq. exists []. split; [done|by left]. }
  destruct (parse_exp l3) as [[x l4]|] eqn:E3; [|done].
  assert (∃ raw, l3 = raw ++ l4 ∧ exp_part raw x) as (ex & -> & D3).
  { unfold parse_exp in E3. destruct l3 as [|c t]; [simplify_eq; exists []; split; [done|by left]|].
    destruct (Ascii.eqb c "e"%char || Ascii.eqb c "E"%char) eqn:Ec; [|simplify_eq; exists []; split; [done|by left]].
    assert (∃ sign sg t2, t = sign ++ t2 ∧ (match t with d :: l2 => if Ascii.eqb d "-"%char then (-1, l2) else if Ascii.eqb d "+"%char then (1, l2) else (1, t) | [] => (1, []) end) = (sg, t2) ∧
      ((sign = chars "-" ∧ sg = -1) ∨ ((sign = chars "+" ∨ sign = []) ∧ sg = 1))) as (sign & sg & t2 & Ht & Em & Hs).
    { destruct t as [|d t']; [exists [], 1, []; naive_solver|]. destruct (Ascii.eqb_spec d "-"%char) as [->|]; [exists (chars "-"), (-1), t'; naive_solver|].
      destruct (Ascii.eqb_spec d "+"%char) as [->|]; [exists (chars "+"), 1, t'; naive_solver|exists [], 1, (d :: t'); naive_solver]. }
    rewrite Em in E3. destruct (span_digits t2) as [d r'] eqn:Es. apply span_digits_sound in Es as [-> Hd].
    destruct d as [|d0 d]; [done|]. injection E3 as <- <-. exists ([c] ++ sign ++ d0 :: d). split; [rewrite Ht; cbn [app]; by rewrite <- app_assoc|].
    right. exists [c], sign, (d0 :: d). split_and!; [done| |done|done|].
    - apply orb_true_iff in Ec as [Ec|Ec]; apply Ascii.eqb_eq in Ec as ->; [by left|by right].
    - rewrite decimal_eq. destruct Hs as [[-> ->]|[Hs ->]]; [left|right]; (split; [done|cbn [decimal_value]; lia]). }
  simplify_eq. exists ((if neg then chars "-" else []) ++ ds ++ fr ++ ex), neg. eexists _, _.
  split_and!; [by rewrite <- !app_assoc|reflexivity|]. exists ds, fr, fs, ex, x. rewrite decimal_eq. by split_and!.
Qed.
Lemma parse_num_complete raw neg m e r : numeral raw neg m e → num_end r → parse_num (raw ++ r) = Some (JNum neg m e, r).
Proof.
  intros (int & frac & fds & exp & x & -> & Hi & Hf & He & -> & ->) Hr.
  assert (int ≠ [] ∧ decimals int ∧ (∀ t, int = "0"%char :: t → t = [])) as (I1 & I2 & I3).
  { destruct Hi as [->|(c & l' & -> & Hc & Hl)].
    - split_and!; [done|repeat constructor; vm_compute; done|]. by intros t [= <-].
    - split_and!; [done|constructor; [lia|done]|]. intros t [= -> _]. change (bz "0"%char) with 48 in Hc. lia. }
  assert (∃ c l, int = c :: l ∧ c ≠ "-"%char) as (c0 & int' & Eint & Hc0).
  { destruct int as [|c l]; [done|]. exists c, l. split; [done|]. intros ->. apply Forall_cons in I2 as [I2 _]. change (bz "-"%char) with 45 in I2. lia. }
  assert (parse_exp (exp ++ r) = Some (x, r)) as Ee.
  { destruct He as [[-> ->]|(e0 & sign & ds & -> & He0 & Hne & Hd & Hs)]; [by apply parse_exp_none|].
    assert (parse_exp (("e"%char :: sign ++ ds) ++ r) = Some (x, r) ∧ parse_exp (("E"%char :: sign ++ ds) ++ r) = Some (x, r)) as [P1 P2].
    { rewrite decimal_eq in Hs. apply decimals_all in Hd. destruct ds as [|d ds]; [done|].
      assert (Ascii.eqb d "-"%char = false ∧ Ascii.eqb d "+"%char = false) as [N1 N2].
      { apply Forall_cons in Hd as [Hd _]. apply inr_spec in Hd.
        split; apply Ascii.eqb_neq; intros ->; [change (bz "-"%char) with 45 in Hd|change (bz "+"%char) with 43 in Hd]; lia. }
      pose proof (num_end_no_digit r Hr) as Hr'.
      destruct Hs as [[-> ->]|[[->| ->] ->]]; split; cbn [app chars list_ascii_of_string parse_exp];
        change (Ascii.eqb "e"%char "e"%char) with true; change (Ascii.eqb "E"%char "e"%char) with false; change (Ascii.eqb "E"%char "E"%char) with true;
        cbn [orb]; rewrite ?N1, ?N2; try change (Ascii.eqb "-"%char "-"%char) with true; try change (Ascii.eqb "+"%char "-"%char) with false;
        try change (Ascii.eqb "+"%char "+"%char) with true; cbn beta iota;
        rewrite app_comm_cons, span_digits_app by done; f_equal; f_equal; lia. }
    rewrite <- app_assoc in *. destruct He0 as [->| ->]; cbn [chars list_ascii_of_string app]; [exact P1|exact P2]. }
  assert (no_digit (exp ++ r) ∧ (∀ c l, exp ++ r = c :: l → c ≠ "."%char)) as [Hx1 Hx2].
  { destruct He as [[-> _]|(e0 & sign & ds & -> & [->| ->] & _)]; cbn [app chars list_ascii_of_string].
    - split; [by apply num_end_no_digit|]. intros c l ->. apply Hr.
    - split; [reflexivity|]. by intros c l [= <- _].
    - split; [reflexivity|]. by intros c l [= <- _]. }
  assert (parse_frac (frac ++ exp ++ r) = Some (fds, exp ++ r)) as Ef.
  { destruct Hf as [[-> ->]|(-> & Hne & Hd)]; [by apply parse_frac_none|].
    cbn [chars list_ascii_of_string app]. apply parse_frac_some; [done|by apply decimals_all|done]. }
  assert (no_digit (frac ++ exp ++ r)) as Hnd.
  { destruct Hf as [[-> ->]|(-> & Hne & Hd)]; [done|]. reflexivity. }
  assert (parse_int (int ++ frac ++ exp ++ r) = Some (int, frac ++ exp ++ r)) as Ei.
  { apply parse_int_digits; [done|by apply decimals_all|done|done]. }
  unfold parse_num.
  assert ((match ((if neg then chars "-" else []) ++ int ++ frac ++ exp) ++ r with
           | c :: l1 => if Ascii.eqb c "-"%char then (true, l1) else (false, ((if neg then chars "-" else []) ++ int ++ frac ++ exp) ++ r)
           | [] => (false, []) end) = (neg, int ++ frac ++ exp ++ r)) as ->.
  { destruct neg; cbn [app chars list_ascii_of_string].
    - change (Ascii.eqb "-"%char "-"%char) with true. cbn beta iota. by rewrite <- !app_assoc.
    - rewrite Eint. cbn [app]. rewrite (proj2 (Ascii.eqb_neq c0 _)) by done. by rewrite <- !app_assoc. }
  by rewrite Ei, Ef, Ee, decimal_eq.
Qed.
