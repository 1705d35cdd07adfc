(** * Varints: size, writing, reading *)
From Verif Require Export WireSpec.
Local Open Scope Z_scope.

(** ** Bytes and lengths *)
Lemma len_app a b : len (a ++ b) = len a + len b.
Proof. unfold len. rewrite app_length. lia. Qed.
Lemma len_nil : len [] = 0. Proof. done. Qed.
Lemma len_cons x a : len (x :: a) = 1 + len a.
Proof. unfold len. simpl. lia. Qed.
Lemma len_nonneg a : 0 ≤ len a. Proof. unfold len. lia. Qed.
Lemma len_to_nat a : Z.to_nat (len a) = length a.
Proof. unfold len. lia. Qed.

Lemma bval_range b : 0 ≤ bval b < 256.
Proof. unfold bval. pose proof (N_ascii_bounded b). lia. Qed.
Lemma bval_to_byte z : 0 ≤ z < 256 → bval (to_byte z) = z.
Proof.
  intros H. unfold bval, to_byte. rewrite Z.mod_small by lia.
  rewrite N_ascii_embedding by lia. lia.
Qed.
Lemma to_byte_bval b : to_byte (bval b) = b.
Proof.
  unfold bval, to_byte. pose proof (N_ascii_bounded b). rewrite Z.mod_small by lia.
  rewrite N2Z.id. apply ascii_N_embedding.
Qed.

(** ** sov *)
Lemma sov_small v : 0 ≤ v < 128 → sov v = 1.
Proof.
  intros H. unfold sov.
  assert (0 ≤ Z.log2 (Z.lor v 1) ≤ 6) as [? ?].
  { split; [apply Z.log2_nonneg|]. rewrite Z.log2_lor by lia.
    change (Z.log2 1) with 0. apply Z.max_lub; [|lia].
    destruct (Z.eq_dec v 0) as [->|]; [simpl; lia|].
    assert (Z.log2 v < 7); [|lia]. apply Z.log2_lt_pow2; lia. }
  symmetry. apply (Z.div_unique _ 7 1 (Z.log2 (Z.lor v 1))); lia.
Qed.

Lemma sov_step v : 128 ≤ v → sov v = 1 + sov (v / 128).
Proof.
  intros H. unfold sov.
  assert (1 ≤ v / 128) by (apply Z.div_le_lower_bound; lia).
  assert (∀ x, 1 ≤ x → Z.log2 (Z.lor x 1) = Z.log2 x) as Hl.
  { intros x Hx. rewrite Z.log2_lor by lia. change (Z.log2 1) with 0.
    pose proof (Z.log2_nonneg x). lia. }
  rewrite !Hl by lia.
  assert (Z.log2 (v / 128) = Z.log2 v - 7) as ->.
  { change 128 with (2^7). rewrite <- Z.shiftr_div_pow2 by lia.
    rewrite Z.log2_shiftr by lia.
    assert (7 ≤ Z.log2 v); [|lia]. apply Z.log2_le_pow2; lia. }
  replace (Z.log2 v + 1 + 6) with (Z.log2 v - 7 + 1 + 6 + 1 * 7) by lia.
  rewrite Z.div_add by lia. lia.
Qed.

Lemma sov_pos v : 0 ≤ v → 1 ≤ sov v.
Proof.
  intros H. destruct (Z.lt_ge_cases v 128).
  - rewrite sov_small; lia.
  - unfold sov. apply Z.div_le_lower_bound; [lia|].
    pose proof (Z.log2_nonneg (Z.lor v 1)). lia.
Qed.

(** ** The groups of a varint *)
Lemma varint_n_sov n v : 0 ≤ v < 128 ^ Z.of_nat n → (0 < n)%nat → len (varint_n n v) = sov v.
Proof.
  revert v. induction n as [|n IH]; intros v Hv Hn; [lia|].
  simpl varint_n. destruct (Z.ltb_spec v 128) as [Hs|Hs].
  - rewrite sov_small by lia. done.
  - rewrite len_cons, sov_step by lia. f_equal.
    rewrite Nat2Z.inj_succ, Z.pow_succ_r in Hv by lia.
    assert (n ≠ 0%nat) by (intros ->; simpl in *; lia).
    apply IH; [|lia]. split; [apply Z.div_pos; lia|]. apply Z.div_lt_upper_bound; lia.
Qed.

Definition isU64 (v : Z) : Prop := 0 ≤ v < 2 ^ 64.
Lemma u64_is z : isU64 (u64 z).
Proof. apply Z.mod_pos_bound. lia. Qed.
Lemma u64_id z : isU64 z → u64 z = z.
Proof. intros H. apply Z.mod_small. exact H. Qed.

Lemma varint_len v : isU64 v → len (varint v) = sov v.
Proof.
  intros [H1 H2]. apply varint_n_sov; [|lia].
  split; [done|]. eapply Z.lt_trans; [exact H2|]. reflexivity.
Qed.

Lemma sov_le_10 v : isU64 v → 1 ≤ sov v ≤ 10.
Proof.
  intros [H1 H2]. split; [by apply sov_pos|].
  unfold sov. assert (Z.log2 (Z.lor v 1) ≤ 63).
  { rewrite Z.log2_lor by lia. change (Z.log2 1) with 0. apply Z.max_lub; [|lia].
    destruct (Z.eq_dec v 0) as [->|]; [simpl; lia|].
    assert (Z.log2 v < 64); [|lia]. apply Z.log2_lt_pow2; lia. }
  apply Z.lt_succ_r. apply Z.div_lt_upper_bound; lia.
Qed.

Lemma varint_nonempty v : isU64 v → 1 ≤ len (varint v).
Proof. intros H. rewrite varint_len by done. apply sov_le_10; done. Qed.

(** ** Writing *)
Lemma put_at_app pre x suf b i :
  i = len pre → put_at (pre ++ x :: suf) i b = Ok (pre ++ b :: suf).
Proof.
  intros ->. unfold put_at.
  rewrite (proj2 (Z.leb_le _ _)) by apply len_nonneg.
  rewrite (proj2 (Z.ltb_lt _ _)).
  - cbn [andb]. f_equal. rewrite len_to_nat.
    etransitivity; [exact (insert_app_r_alt pre (x :: suf) (length pre) b (Nat.le_refl _))|].
    by rewrite Nat.sub_diag.
  - rewrite len_app, len_cons. pose proof (len_nonneg suf). lia.
Qed.

Lemma varint_loop_ok n pre old suf off v :
  0 ≤ v → length old = length (varint_n n v) → off = len pre → v < 128 ^ Z.of_nat n → (0 < n)%nat →
  varint_loop n (pre ++ old ++ suf) off v = Ok (pre ++ varint_n n v ++ suf).
Proof.
  revert pre old off v. induction n as [|n IH]; intros pre old off v Hv Hl Ho Hb Hn; [lia|].
  cbn [varint_loop varint_n] in *. rewrite Z.geb_leb.
  rewrite Nat2Z.inj_succ, Z.pow_succ_r in Hb by lia.
  destruct (Z.ltb_spec v 128) as [Hs|Hs].
  - rewrite (proj2 (Z.leb_gt _ _)) by lia.
    destruct old as [|x [|]]; simpl in Hl; try lia. simpl. by apply put_at_app.
  - rewrite (proj2 (Z.leb_le _ _)) by lia.
    assert (to_byte (Z.lor (Z.land v 127) 128) = to_byte (128 + v mod 128)) as ->.
    { f_equal. change 127 with (Z.ones 7). rewrite Z.land_ones by lia. change (2^7) with 128.
      rewrite Z.add_comm. symmetry. 
      assert (Z.land (v mod 128) 128 = 0) as Hd.
      { pose proof (Z.mod_pos_bound v 128 ltac:(lia)).
        apply Z.bits_inj'. intros k Hk. rewrite Z.land_spec, Z.bits_0.
        change 128 with (2^7) at 2. rewrite Z.pow2_bits_eqb by lia.
        destruct (Z.eqb_spec 7 k) as [<-|]; [|apply andb_false_r].
        rewrite andb_true_r. apply Z.bits_above_log2; [lia|].
        destruct (Z.eq_dec (v mod 128) 0) as [->|]; [simpl; lia|].
        apply Z.log2_lt_pow2; lia. }
      rewrite <- Z.lxor_lor by done. by apply Z.add_nocarry_lxor. }
    destruct old as [|x old]; simpl in Hl; [lia|]. simpl app at 1.
    rewrite (put_at_app pre x) by done.
    assert (n ≠ 0%nat) by (intros ->; simpl in *; lia).
    change 7 with 7. rewrite Z.shiftr_div_pow2 by lia. change (2^7) with 128.
    replace (pre ++ to_byte (128 + v mod 128) :: old ++ suf)
      with ((pre ++ [to_byte (128 + v mod 128)]) ++ old ++ suf) by (by rewrite <- app_assoc).
    rewrite IH; [|apply Z.div_pos; lia|lia| |apply Z.div_lt_upper_bound; lia|lia].
    + by rewrite <- app_assoc.
    + rewrite len_app, len_cons, len_nil. lia.
Qed.

Lemma encodeVarint_ok pre old suf v :
  isU64 v → length old = length (varint v) →
  encodeVarint (pre ++ old ++ suf) (len (pre ++ old)) v = Ok (pre ++ varint v ++ suf, len pre).
Proof.
  intros Hv Hl. unfold encodeVarint.
  assert (len (pre ++ old) - sov v = len pre) as ->.
  { rewrite len_app, <- varint_len by done. unfold len. lia. }
  rewrite varint_loop_ok; [done|apply Hv|done|done| |lia].
  destruct Hv as [_ H2]. eapply Z.lt_trans; [exact H2|]. reflexivity.
Qed.

(** ** Reading *)
Lemma byte_at_app pre b suf : byte_at (pre ++ b :: suf) (len pre) = ROk b.
Proof.
  unfold byte_at. rewrite (proj2 (Z.leb_le _ _)) by apply len_nonneg.
  rewrite len_to_nat, nth_error_app2, Nat.sub_diag by lia. done.
Qed.

Lemma lor_shiftl_add acc x s : 0 ≤ s → 0 ≤ acc < 2 ^ s → 0 ≤ x → Z.lor acc (Z.shiftl x s) = acc + x * 2 ^ s.
Proof.
  intros Hs Ha Hx.
  assert (Z.land acc (Z.shiftl x s) = 0) as Hd.
  { apply Z.bits_inj'. intros k Hk. rewrite Z.land_spec, Z.bits_0.
    destruct (Z.lt_ge_cases k s).
    - rewrite Z.shiftl_spec_low by lia. apply andb_false_r.
    - destruct (Z.eq_dec acc 0) as [->|]; [by rewrite Z.bits_0|].
      rewrite (Z.bits_above_log2 acc k); [done|lia|].
      eapply Z.lt_le_trans; [|eassumption]. apply Z.log2_lt_pow2; lia. }
  rewrite <- Z.lxor_lor by done. rewrite <- Z.add_nocarry_lxor by done.
  rewrite Z.shiftl_mul_pow2 by lia. done.
Qed.

Lemma varint_from_ok n fuel pre suf v shift acc :
  0 ≤ v → v < 128 ^ Z.of_nat n → (0 < n)%nat → (n < fuel)%nat →
  0 ≤ shift → shift < 64 → 0 ≤ acc < 2 ^ shift → acc + v * 2 ^ shift < 2 ^ 64 →
  varint_from fuel (pre ++ varint_n n v ++ suf) (len pre) shift acc
    = ROk (acc + v * 2 ^ shift, len pre + len (varint_n n v)).
Proof.
  revert fuel pre v shift acc. induction n as [|n IH];
    intros fuel pre v shift acc Hv Hb Hn Hf Hs Hs64 Ha Ht; [lia|].
  destruct fuel as [|fuel]; [lia|].
  cbn [varint_from varint_n] in *.
  rewrite Nat2Z.inj_succ, Z.pow_succ_r in Hb by lia.
  rewrite !Z.geb_leb. rewrite (proj2 (Z.leb_gt 64 shift)) by lia.
  assert (0 < 2 ^ shift) by (apply Z.pow_pos_nonneg; lia).
  destruct (Z.ltb_spec v 128) as [Hsm|Hsm].
  - rewrite (proj2 (Z.leb_gt (len _) _)).
    2:{ simpl. rewrite len_app, len_cons. pose proof (len_nonneg suf). lia. }
    simpl app. rewrite byte_at_app. simpl rbind. rewrite bval_to_byte by lia.
    rewrite (proj2 (Z.ltb_lt _ _)) by lia.
    change 127 with (Z.ones 7). rewrite Z.land_ones by lia. rewrite Z.mod_small by (simpl; lia).
    rewrite u64_id by (rewrite Z.shiftl_mul_pow2 by lia; split; nia).
    rewrite lor_shiftl_add by lia.
    rewrite len_cons, len_nil. done.
  - rewrite (proj2 (Z.leb_gt (len _) _)).
    2:{ simpl. rewrite len_app, len_cons. pose proof (len_nonneg (varint_n n (v/128) ++ suf)). lia. }
    pose proof (Z.mod_pos_bound v 128 ltac:(lia)) as Hm.
    simpl app. rewrite byte_at_app. simpl rbind. rewrite bval_to_byte by lia.
    rewrite (proj2 (Z.ltb_ge _ _)) by lia.
    change 127 with (Z.ones 7). rewrite Z.land_ones by lia. change (2^7) with 128.
    assert ((128 + v mod 128) mod 128 = v mod 128) as ->.
    { rewrite <- (Z.mul_1_l 128) at 1. rewrite Z.add_comm, Z.mod_add by lia. apply Z.mod_small. lia. }
    pose proof (Z.div_mod v 128 ltac:(lia)) as Hdm.
    assert (1 ≤ v / 128) by (apply Z.div_le_lower_bound; lia).
    set (q := v / 128) in *. set (r := v mod 128) in *.
    rewrite u64_id by (rewrite Z.shiftl_mul_pow2 by lia; split; nia).
    rewrite lor_shiftl_add by lia.
    assert (2 ^ (shift + 7) = 128 * 2 ^ shift) as Hp by (rewrite Z.pow_add_r by lia; change (2^7) with 128; lia).
    assert (n ≠ 0%nat) by (intros ->; simpl in *; lia).
    replace (pre ++ to_byte (128 + r) :: varint_n n q ++ suf)
      with ((pre ++ [to_byte (128 + r)]) ++ varint_n n q ++ suf) by (by rewrite <- app_assoc).
    replace (len pre + 1) with (len (pre ++ [to_byte (128 + r)])) by (rewrite len_app, len_cons, len_nil; lia).
    assert (shift + 7 < 64).
    { apply (Z.pow_lt_mono_r_iff 2); [lia|lia|]. nia. }
    rewrite IH; [|lia|lia|lia|lia|lia|lia| |nia].
    + f_equal. f_equal; [rewrite Hp; nia|]. rewrite !len_app, !len_cons, len_nil. lia.
    + nia.
Qed.

Lemma read_varint_ok pre suf v :
  isU64 v → read_varint (pre ++ varint v ++ suf) (len pre) = ROk (v, len pre + sov v).
Proof.
  intros Hv. unfold read_varint, varint. rewrite varint_from_ok; [| |..].
  - rewrite <- varint_len by done. rewrite Z.pow_0_r. f_equal. f_equal. lia.
  - apply Hv.
  - destruct Hv as [_ H2]. eapply Z.lt_trans; [exact H2|]. reflexivity.
  - lia.
  - lia.
  - lia.
  - lia.
  - simpl. lia.
  - rewrite Z.pow_0_r. destruct Hv. lia.
Qed.
