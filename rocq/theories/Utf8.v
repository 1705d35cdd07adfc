(** * UTF-8 as encoding/json treats it: invalid bytes become U+FFFD.

    Standard library code (unicode/utf8 DecodeRuneInString, encoding/json
    appendString and unquote), modelled because /repo's events hold arbitrary Go
    strings and the JSON theorems must say what happens to them. *)
From Verif Require Export GoBase.
From Coq Require Import Lia.
Local Open Scope Z_scope.

(** The number a byte holds. *)
Definition bz (c : ascii) : Z := Z.of_N (N_of_ascii c).
Definition zb (z : Z) : ascii := ascii_of_N (Z.to_N z).

(** ** The model: unicode/utf8 [first] and [acceptRanges] tables *)
Definition inr (lo hi : Z) (c : ascii) : bool := (lo <=? bz c) && (bz c <=? hi).
Definition utf8_1 (b0 : ascii) : bool := inr 0 0x7F b0.
Definition utf8_2 (b0 b1 : ascii) : bool := inr 0xC2 0xDF b0 && inr 0x80 0xBF b1.
Definition utf8_3 (b0 b1 b2 : ascii) : bool :=
  ((inr 0xE0 0xE0 b0 && inr 0xA0 0xBF b1) || (inr 0xE1 0xEC b0 && inr 0x80 0xBF b1) ||
   (inr 0xED 0xED b0 && inr 0x80 0x9F b1) || (inr 0xEE 0xEF b0 && inr 0x80 0xBF b1)) && inr 0x80 0xBF b2.
Definition utf8_4 (b0 b1 b2 b3 : ascii) : bool :=
  ((inr 0xF0 0xF0 b0 && inr 0x90 0xBF b1) || (inr 0xF1 0xF3 b0 && inr 0x80 0xBF b1) ||
   (inr 0xF4 0xF4 b0 && inr 0x80 0x8F b1)) && inr 0x80 0xBF b2 && inr 0x80 0xBF b3.
(** U+FFFD in UTF-8. *)
Definition runeError : list ascii := [zb 0xEF; zb 0xBF; zb 0xBD].
(** encoding/json appendString: valid sequences are kept, any other byte is replaced. *)
Fixpoint fix_bytes (l : list ascii) : list ascii :=
  match l with
  | [] => []
  | b0 :: l1 =>
      if utf8_1 b0 then b0 :: fix_bytes l1
      else
        let bad := runeError ++ fix_bytes l1 in
        match l1 with
        | [] => bad
        | b1 :: l2 =>
            if utf8_2 b0 b1 then b0 :: b1 :: fix_bytes l2
            else
              match l2 with
              | [] => bad
              | b2 :: l3 =>
                  if utf8_3 b0 b1 b2 then b0 :: b1 :: b2 :: fix_bytes l3
                  else
                    match l3 with
                    | [] => bad
                    | b3 :: l4 => if utf8_4 b0 b1 b2 b3 then b0 :: b1 :: b2 :: b3 :: fix_bytes l4 else bad
                    end
              end
        end
  end.
Definition fix_utf8 (s : string) : string := string_of_list_ascii (fix_bytes (list_ascii_of_string s)).

(** ** Specification: RFC 3629 *)
(** A Unicode scalar value: a code point that is no surrogate. *)
Definition scalar (c : Z) : Prop := 0 ≤ c < 0xD800 ∨ 0xE000 ≤ c < 0x110000.
Definition utf8_encode (c : Z) : list ascii :=
  if c <? 0x80 then [zb c]
  else if c <? 0x800 then [zb (0xC0 + c / 64); zb (0x80 + c mod 64)]
  else if c <? 0x10000 then [zb (0xE0 + c / 4096); zb (0x80 + c / 64 mod 64); zb (0x80 + c mod 64)]
  else [zb (0xF0 + c / 262144); zb (0x80 + c / 4096 mod 64); zb (0x80 + c / 64 mod 64); zb (0x80 + c mod 64)].
Definition valid_bytes (l : list ascii) : Prop := ∃ cs, Forall scalar cs ∧ l = flat_map utf8_encode cs.
Definition valid_utf8 (s : string) : Prop := valid_bytes (list_ascii_of_string s).

(** ** Proofs *)
Lemma bz_range c : 0 ≤ bz c < 256.
Proof. unfold bz. pose proof (N_ascii_bounded c). lia. Qed.
Lemma bz_zb z : 0 ≤ z < 256 → bz (zb z) = z.
Proof. intros H. unfold bz, zb. rewrite N_ascii_embedding; lia. Qed.
Lemma zb_bz c : zb (bz c) = c.
Proof. unfold bz, zb. rewrite N2Z.id. apply ascii_N_embedding. Qed.
Lemma bz_inj c d : bz c = bz d → c = d.
Proof. intros H. by rewrite <- (zb_bz c), H, zb_bz. Qed.
Lemma inr_spec lo hi c : inr lo hi c = true ↔ lo ≤ bz c ≤ hi.
Proof. unfold inr. rewrite andb_true_iff, !Z.leb_le. lia. Qed.
Lemma inr_false lo hi c : inr lo hi c = false ↔ ¬ lo ≤ bz c ≤ hi.
Proof. rewrite <- inr_spec. by destruct (inr lo hi c). Qed.

(** Each recognised form is the encoding of a scalar value, and conversely. *)
Lemma utf8_1_enc b0 : utf8_1 b0 = true → ∃ c, scalar c ∧ utf8_encode c = [b0].
Proof.
  intros H. apply inr_spec in H. exists (bz b0). split; [left; lia|]. unfold utf8_encode.
  destruct (Z.ltb_spec (bz b0) 0x80); [by rewrite zb_bz|lia].
Qed.
Lemma utf8_2_enc b0 b1 : utf8_2 b0 b1 = true → ∃ c, scalar c ∧ utf8_encode c = [b0; b1].
Proof.
  unfold utf8_2. rewrite andb_true_iff, !inr_spec. intros [H0 H1].
  set (c := (bz b0 - 0xC0) * 64 + (bz b1 - 0x80)).
  assert (c / 64 = bz b0 - 0xC0) as E1 by (symmetry; apply (Z.div_unique_pos _ _ _ (bz b1 - 0x80)); unfold c; lia).
  assert (c mod 64 = bz b1 - 0x80) as E2 by (symmetry; apply (Z.mod_unique_pos _ _ (bz b0 - 0xC0)); unfold c; lia).
  exists c. split; [left; unfold c; lia|]. unfold utf8_encode.
  destruct (Z.ltb_spec c 0x80); [unfold c in *; lia|]. destruct (Z.ltb_spec c 0x800); [|unfold c in *; lia].
  rewrite E1, E2. f_equal; [|f_equal]; rewrite <- zb_bz; f_equal; lia.
Qed.
Lemma utf8_3_enc b0 b1 b2 : utf8_3 b0 b1 b2 = true → ∃ c, scalar c ∧ utf8_encode c = [b0; b1; b2].
Proof.
  unfold utf8_3. rewrite !andb_true_iff, !orb_true_iff, !andb_true_iff, !inr_spec. intros [H01 H2].
  set (c := (bz b0 - 0xE0) * 4096 + (bz b1 - 0x80) * 64 + (bz b2 - 0x80)).
  assert (0x80 ≤ bz b1 ≤ 0xBF) as H1 by lia. assert (0xE0 ≤ bz b0 ≤ 0xEF) as H0 by lia.
  assert (c / 4096 = bz b0 - 0xE0) as E0 by (symmetry; apply (Z.div_unique_pos _ _ _ ((bz b1 - 0x80) * 64 + (bz b2 - 0x80))); unfold c; lia).
  assert (c / 64 = (bz b0 - 0xE0) * 64 + (bz b1 - 0x80)) as E1 by (symmetry; apply (Z.div_unique_pos _ _ _ (bz b2 - 0x80)); unfold c; lia).
  assert (c mod 64 = bz b2 - 0x80) as E2 by (symmetry; apply (Z.mod_unique_pos _ _ ((bz b0 - 0xE0) * 64 + (bz b1 - 0x80))); unfold c; lia).
  assert (((bz b0 - 0xE0) * 64 + (bz b1 - 0x80)) mod 64 = bz b1 - 0x80) as E3 by (symmetry; apply (Z.mod_unique_pos _ _ (bz b0 - 0xE0)); lia).
  exists c. split; [unfold scalar, c; lia|]. unfold utf8_encode.
  destruct (Z.ltb_spec c 0x80); [unfold c in *; lia|]. destruct (Z.ltb_spec c 0x800); [unfold c in *; lia|].
  destruct (Z.ltb_spec c 0x10000); [|unfold c in *; lia].
  rewrite E0, E1, E2, E3. f_equal; [|f_equal; [|f_equal]]; rewrite <- zb_bz; f_equal; lia.
Qed.
Lemma utf8_4_enc b0 b1 b2 b3 : utf8_4 b0 b1 b2 b3 = true → ∃ c, scalar c ∧ utf8_encode c = [b0; b1; b2; b3].
Proof.
  unfold utf8_4. rewrite !andb_true_iff, !orb_true_iff, !andb_true_iff, !inr_spec. intros [[H01 H2] H3].
  assert (0x80 ≤ bz b1 ≤ 0xBF) as H1 by lia. assert (0xF0 ≤ bz b0 ≤ 0xF4) as H0 by lia.
  set (x0 := bz b0 - 0xF0). set (x1 := bz b1 - 0x80). set (x2 := bz b2 - 0x80). set (x3 := bz b3 - 0x80).
  set (c := x0 * 262144 + x1 * 4096 + x2 * 64 + x3).
  assert (0 ≤ x1 < 64 ∧ 0 ≤ x2 < 64 ∧ 0 ≤ x3 < 64 ∧ 0 ≤ x0) as (B1 & B2 & B3 & B0) by (unfold x0, x1, x2, x3; lia).
  assert (c / 262144 = x0) as E0 by (symmetry; apply (Z.div_unique_pos _ _ _ (x1 * 4096 + x2 * 64 + x3)); unfold c; lia).
  assert (c / 4096 = x0 * 64 + x1) as E1 by (symmetry; apply (Z.div_unique_pos _ _ _ (x2 * 64 + x3)); unfold c; lia).
  assert (c / 64 = x0 * 4096 + x1 * 64 + x2) as E2 by (symmetry; apply (Z.div_unique_pos _ _ _ x3); unfold c; lia).
  assert (c mod 64 = x3) as E3 by (symmetry; apply (Z.mod_unique_pos _ _ (x0 * 4096 + x1 * 64 + x2)); unfold c; lia).
  assert ((x0 * 64 + x1) mod 64 = x1) as E4 by (symmetry; apply (Z.mod_unique_pos _ _ x0); lia).
  assert ((x0 * 4096 + x1 * 64 + x2) mod 64 = x2) as E5 by (symmetry; apply (Z.mod_unique_pos _ _ (x0 * 64 + x1)); lia).
  exists c. split; [right; unfold c, x0, x1, x2, x3 in *; lia|]. unfold utf8_encode.
  assert (0x10000 ≤ c) by (unfold c, x0, x1, x2, x3 in *; lia).
  destruct (Z.ltb_spec c 0x80); [lia|]. destruct (Z.ltb_spec c 0x800); [lia|].
  destruct (Z.ltb_spec c 0x10000); [lia|].
  rewrite E0, E1, E2, E3, E4, E5. unfold x0, x1, x2, x3.
  f_equal; [|f_equal; [|f_equal; [|f_equal]]]; rewrite <- zb_bz; f_equal; lia.
Qed.

Lemma fix_encode c l : scalar c → fix_bytes (utf8_encode c ++ l) = utf8_encode c ++ fix_bytes l.
Proof.
  intros Hc. unfold utf8_encode.
  pose proof (Z.div_mod c 64 ltac:(lia)) as D1. pose proof (Z.mod_pos_bound c 64 ltac:(lia)) as M1.
  pose proof (Z.div_mod (c / 64) 64 ltac:(lia)) as D2. pose proof (Z.mod_pos_bound (c / 64) 64 ltac:(lia)) as M2.
  pose proof (Z.div_mod (c / 4096) 64 ltac:(lia)) as D3. pose proof (Z.mod_pos_bound (c / 4096) 64 ltac:(lia)) as M3.
  assert (c / 64 / 64 = c / 4096) as Q1 by (rewrite Z.div_div by lia; done).
  assert (c / 4096 / 64 = c / 262144) as Q2 by (rewrite Z.div_div by lia; done).
  rewrite Q1 in D2. rewrite Q2 in D3.
  destruct (Z.ltb_spec c 0x80); [|destruct (Z.ltb_spec c 0x800); [|destruct (Z.ltb_spec c 0x10000)]]; simpl.
  - assert (utf8_1 (zb c) = true) as ->; [|done]. apply inr_spec. rewrite bz_zb; unfold scalar in *; lia.
  - assert (utf8_1 (zb (192 + c / 64)) = false) as ->.
    { apply inr_false. rewrite bz_zb; lia. }
    assert (utf8_2 (zb (192 + c / 64)) (zb (128 + c mod 64)) = true) as ->; [|done].
    unfold utf8_2. rewrite andb_true_iff, !inr_spec, !bz_zb; lia.
  - assert (utf8_1 (zb (224 + c / 4096)) = false) as ->.
    { apply inr_false. rewrite bz_zb; lia. }
    assert (utf8_2 (zb (224 + c / 4096)) (zb (128 + (c / 64) mod 64)) = false) as ->.
    { unfold utf8_2. apply andb_false_iff. left. apply inr_false. rewrite bz_zb; lia. }
    assert (utf8_3 (zb (224 + c / 4096)) (zb (128 + (c / 64) mod 64)) (zb (128 + c mod 64)) = true) as ->; [|done].
    unfold utf8_3. rewrite !andb_true_iff, !orb_true_iff, !andb_true_iff, !inr_spec, !bz_zb by lia. unfold scalar in *. lia.
  - assert (c < 0x110000) by (unfold scalar in *; lia).
    assert (utf8_1 (zb (240 + c / 262144)) = false) as ->.
    { apply inr_false. rewrite bz_zb; lia. }
    assert (utf8_2 (zb (240 + c / 262144)) (zb (128 + (c / 4096) mod 64)) = false) as ->.
    { unfold utf8_2. apply andb_false_iff. left. apply inr_false. rewrite bz_zb; lia. }
    assert (utf8_3 (zb (240 + c / 262144)) (zb (128 + (c / 4096) mod 64)) (zb (128 + (c / 64) mod 64)) = false) as ->.
    { unfold utf8_3. apply andb_false_iff. left. rewrite !orb_false_iff, !andb_false_iff, !inr_false, !bz_zb by lia. lia. }
    assert (utf8_4 (zb (240 + c / 262144)) (zb (128 + (c / 4096) mod 64)) (zb (128 + (c / 64) mod 64)) (zb (128 + c mod 64)) = true) as ->; [|done].
    unfold utf8_4. rewrite !andb_true_iff, !orb_true_iff, !andb_true_iff, !inr_spec, !bz_zb by lia. lia.
Qed.
Lemma runeError_enc : utf8_encode 0xFFFD = runeError.
Proof. reflexivity. Qed.
(** What a byte list begins with. *)
Lemma fix_step l : l = [] ∨ ∃ c r l', l = r ++ l' ∧ r ≠ [] ∧ scalar c ∧ fix_bytes l = utf8_encode c ++ fix_bytes l' ∧
  (r = utf8_encode c ∨ (length r = 1)%nat ∧ c = 0xFFFD ∧ fix_bytes l ≠ l).
Proof.
  destruct l as [|b0 l1]; [by left|]. right. cbn [fix_bytes].
  assert (runeError ++ fix_bytes l1 ≠ b0 :: l1 ∨ b0 = zb 0xEF ∧ ∃ l', l1 = zb 0xBF :: zb 0xBD :: l') as Hbad.
  { destruct (decide (runeError ++ fix_bytes l1 = b0 :: l1)) as [E|]; [|by left]. right. simpl in E.
    injection E as <- E. split; [done|]. exists (fix_bytes l1). done. }
  assert (utf8_1 b0 = false → match l1 with b1 :: l2 => utf8_2 b0 b1 = false ∧ match l2 with b2 :: _ => utf8_3 b0 b1 b2 = false | [] => True end | [] => True end →
    ∃ c r l', b0 :: l1 = r ++ l' ∧ r ≠ [] ∧ scalar c ∧ runeError ++ fix_bytes l1 = utf8_encode c ++ fix_bytes l' ∧
    (r = utf8_encode c ∨ (length r = 1)%nat ∧ c = 0xFFFD ∧ runeError ++ fix_bytes l1 ≠ b0 :: l1)) as Hb.
  { intros H1 H2. exists 0xFFFD, [b0], l1. split_and!; try done; [right; lia|]. right. split_and!; try done.
    destruct Hbad as [?|[-> [l' ->]]]; [done|]. exfalso. destruct H2 as [_ H2]. vm_compute in H2. done. }
  destruct (utf8_1 b0) eqn:E1.
  { destruct (utf8_1_enc _ E1) as (c & Hc & Hc'). exists c, [b0], l1. rewrite Hc'. split_and!; auto. }
  destruct l1 as [|b1 l2]; [by apply Hb|].
  destruct (utf8_2 b0 b1) eqn:E2.
  { destruct (utf8_2_enc _ _ E2) as (c & Hc & Hc'). exists c, [b0; b1], l2. rewrite Hc'. split_and!; auto. }
  destruct l2 as [|b2 l3]; [by apply Hb|].
  destruct (utf8_3 b0 b1 b2) eqn:E3.
  { destruct (utf8_3_enc _ _ _ E3) as (c & Hc & Hc'). exists c, [b0; b1; b2], l3. rewrite Hc'. split_and!; auto. }
  destruct l3 as [|b3 l4]; [by apply Hb|].
  destruct (utf8_4 b0 b1 b2 b3) eqn:E4; [|by apply Hb].
  destruct (utf8_4_enc _ _ _ _ E4) as (c & Hc & Hc'). exists c, [b0; b1; b2; b3], l4. rewrite Hc'. split_and!; auto.
Qed.
Lemma fix_bytes_valid l : valid_bytes (fix_bytes l).
Proof.
  remember (length l) as n eqn:Hn. revert l Hn. induction (lt_wf n) as [n _ IH]. intros l ->.
  destruct (fix_step l) as [->|(c & r & l' & -> & Hr & Hc & E & _)]; [by exists []|].
  destruct (IH (length l') ltac:(rewrite app_length; destruct r; simpl in *; [done|lia]) l' eq_refl) as (cs & Hcs & E').
  exists (c :: cs). split; [by constructor|]. rewrite E, E'. done.
Qed.
Lemma fix_bytes_id l : valid_bytes l → fix_bytes l = l.
Proof.
  intros (cs & Hcs & ->). induction Hcs as [|c cs Hc Hcs IH]; [done|]. simpl. by rewrite fix_encode, IH.
Qed.
Lemma fix_bytes_iff l : fix_bytes l = l ↔ valid_bytes l.
Proof. split; [|apply fix_bytes_id]. intros <-. apply fix_bytes_valid. Qed.
Lemma fix_utf8_valid s : valid_utf8 (fix_utf8 s).
Proof. unfold valid_utf8, fix_utf8. rewrite list_ascii_of_string_of_list_ascii. apply fix_bytes_valid. Qed.
Lemma fix_utf8_iff s : fix_utf8 s = s ↔ valid_utf8 s.
Proof.
  unfold valid_utf8, fix_utf8. rewrite <- fix_bytes_iff. split; intros H.
  - by rewrite <- (list_ascii_of_string_of_list_ascii (fix_bytes _)), H.
  - rewrite H. apply string_of_list_ascii_of_string.
Qed.
Lemma fix_utf8_idem s : fix_utf8 (fix_utf8 s) = fix_utf8 s.
Proof. apply fix_utf8_iff, fix_utf8_valid. Qed.
(** ASCII text is valid. *)
Lemma ascii_valid l : Forall (λ c, bz c < 0x80) l → valid_bytes l.
Proof.
  intros H. exists (map bz l). split.
  - apply Forall_forall. intros c Hc. apply elem_of_list_fmap in Hc as (b & -> & Hb).
    rewrite Forall_forall in H. specialize (H _ Hb). pose proof (bz_range b). left. lia.
  - induction H as [|c l Hc Hl IH]; [done|]. simpl. rewrite <- IH. unfold utf8_encode.
    destruct (Z.ltb_spec (bz c) 0x80); [|lia]. by rewrite zb_bz.
Qed.
