(** * Decimal numbers to IEEE-754 doubles: what strconv.ParseFloat(s, 64) computes.

    Standard library code, modelled by its documented contract: the nearest double,
    ties to the one with even significand, an error on overflow.  Bits are as in
    math.Float64bits. *)
From Verif Require Export GoBase.
From Coq Require Import Lia.
Local Open Scope Z_scope.

(** ** The model *)
(** n / d rounded to an integer, ties to even. *)
Definition round_even (n d : Z) : Z :=
  let q := n / d in let r := n mod d in
  if 2 * r <? d then q else if d <? 2 * r then q + 1 else if Z.even q then q else q + 1.
(** The [k] with 2^k <= n/d < 2^(k+1). *)
Definition le_scaled (k n d : Z) : bool :=   (* 2^k <= n/d *)
  if 0 <=? k then d * 2 ^ k <=? n else d <=? n * 2 ^ (- k).
Definition floor_log2 (n d : Z) : Z :=
  let k := Z.log2 n - Z.log2 d in if le_scaled k n d then k else k - 1.
(** The double nearest to n/d, n >= 0, d > 0; [None] on overflow.  A double is
    q * 2^e with e >= -1074; its bits are (e+1074)*2^52 + q. *)
Definition f64_of_ratio (n d : Z) : option Z :=
  if n =? 0 then Some 0
  else
    let e := Z.max (-1074) (floor_log2 n d - 52) in
    let q := if 0 <=? e then round_even n (d * 2 ^ e) else round_even (n * 2 ^ (- e)) d in
    let bits := (e + 1074) * 2 ^ 52 + q in
    if bits <? 2047 * 2 ^ 52 then Some bits else None.
(** The double for the literal (-)m * 10^e. *)
Definition f64_of_dec (neg : bool) (m e : Z) : option Z :=
  match (if 0 <=? e then f64_of_ratio (m * 10 ^ e) 1 else f64_of_ratio m (10 ^ (- e))) with
  | Some b => Some (if neg then 2 ^ 63 + b else b)
  | None => None
  end.

(** ** Specification *)
(** Finite bits. *)
Definition f64_mag (b : Z) : Z := b mod 2 ^ 63.
Definition finite64 (b : Z) : bool := (0 <=? b) && (b <? 2 ^ 64) && (f64_mag b <? 2047 * 2 ^ 52).
(** The magnitude of finite bits is [f64_sig b * 2 ^ f64_exp b]. *)
Definition f64_sig (b : Z) : Z := let E := f64_mag b / 2 ^ 52 in let f := f64_mag b mod 2 ^ 52 in if E =? 0 then f else 2 ^ 52 + f.
Definition f64_exp (b : Z) : Z := Z.max 1 (f64_mag b / 2 ^ 52) - 1075.
Definition f64_neg (b : Z) : bool := 2 ^ 63 <=? b.
(** The magnitude n/d equals that of [b], as integers. *)
Definition ratio_is (n d : Z) (b : Z) : Prop :=
  n * 2 ^ 1074 = d * (f64_sig b * 2 ^ (f64_exp b + 1074)).

(** ** Proofs *)
Lemma p52 : 2 ^ 52 = 4503599627370496. Proof. reflexivity. Qed.
Lemma p53 : 2 ^ 53 = 9007199254740992. Proof. reflexivity. Qed.
Lemma p63 : 2 ^ 63 = 9223372036854775808. Proof. reflexivity. Qed.
Lemma p64 : 2 ^ 64 = 18446744073709551616. Proof. reflexivity. Qed.
Lemma pow2_pos k : 0 ≤ k → 0 < 2 ^ k. Proof. intros. apply Z.pow_pos_nonneg; lia. Qed.

Lemma round_even_exact q d : 0 < d → round_even (q * d) d = q.
Proof.
  intros Hd. unfold round_even. rewrite Z.div_mul, Z.mod_mul by lia. destruct (Z.ltb_spec (2 * 0) d); [done|lia].
Qed.

(** [floor_log2], through a common scaling: n * 2^s against d * 2^(k+s). *)
Lemma le_scaled_spec k n d s : 0 ≤ s → 0 ≤ k + s → 0 < d → 0 ≤ n →
  le_scaled k n d = true ↔ d * 2 ^ (k + s) ≤ n * 2 ^ s.
Proof.
  intros Hs Hks Hd Hn. unfold le_scaled. destruct (Z.leb_spec 0 k) as [Hk|Hk].
  - rewrite Z.leb_le, Z.pow_add_r by lia. pose proof (pow2_pos s Hs). nia.
  - rewrite Z.leb_le. replace (n * 2 ^ s) with (n * 2 ^ (- k) * 2 ^ (k + s)).
    + pose proof (pow2_pos (k + s) Hks). nia.
    + rewrite <- Z.mul_assoc, <- Z.pow_add_r by lia. f_equal. f_equal. lia.
Qed.
Lemma floor_log2_spec n d s : 0 < n → 0 < d → 0 ≤ s → Z.log2 d + 1 ≤ s →
  d * 2 ^ (floor_log2 n d + s) ≤ n * 2 ^ s < d * 2 ^ (floor_log2 n d + s + 1).
Proof.
  intros Hn Hd Hs Hsd. unfold floor_log2.
  pose proof (Z.log2_spec n Hn) as [N1 N2]. pose proof (Z.log2_spec d Hd) as [D1 D2].
  pose proof (Z.log2_nonneg n). pose proof (Z.log2_nonneg d).
  set (a := Z.log2 n) in *. set (b := Z.log2 d) in *.
  assert (n * 2 ^ s < d * 2 ^ (a - b + s + 1)) as Hup.
  { assert (2 ^ Z.succ a * 2 ^ s = 2 ^ b * 2 ^ (a - b + s + 1)) as E by (rewrite <- !Z.pow_add_r by lia; f_equal; lia).
    pose proof (pow2_pos s Hs). pose proof (pow2_pos (a - b + s + 1) ltac:(lia)). nia. }
  destruct (le_scaled (a - b) n d) eqn:E.
  - apply (le_scaled_spec _ _ _ s) in E; lia.
  - assert (¬ d * 2 ^ (a - b + s) ≤ n * 2 ^ s) as E'.
    { intros Hle. apply le_scaled_spec in Hle; try lia. congruence. }
    replace (a - b - 1 + s + 1) with (a - b + s) by lia. split; [|lia].
    assert (2 ^ a * 2 ^ s = 2 ^ Z.succ b * 2 ^ (a - b - 1 + s)) as Ee by (rewrite <- !Z.pow_add_r by lia; f_equal; lia).
    pose proof (pow2_pos s Hs). pose proof (pow2_pos (a - b - 1 + s) ltac:(lia)). nia.
Qed.
Lemma floor_log2_unique n d k s : 0 < n → 0 < d → 0 ≤ s → Z.log2 d + 1 ≤ s → 0 ≤ k + s →
  d * 2 ^ (k + s) ≤ n * 2 ^ s < d * 2 ^ (k + s + 1) → floor_log2 n d = k.
Proof.
  intros Hn Hd Hs Hsd Hks [H1 H2]. destruct (floor_log2_spec n d s Hn Hd Hs Hsd) as [G1 G2].
  set (k' := floor_log2 n d) in *.
  assert (0 ≤ k' + s) as Hk's.
  { unfold k', floor_log2. pose proof (Z.log2_nonneg n). destruct (le_scaled _ _ _); lia. }
  assert (2 ^ (k + s) < 2 ^ (k' + s + 1)) as L1 by nia. assert (2 ^ (k' + s) < 2 ^ (k + s + 1)) as L2 by nia.
  apply Z.pow_lt_mono_r_iff in L1; try lia. apply Z.pow_lt_mono_r_iff in L2; lia.
Qed.

(** A ratio that is exactly a double gives that double. *)
Lemma f64_of_ratio_exact n d b : 0 ≤ n → 0 < d → 0 ≤ b < 2047 * 2 ^ 52 → ratio_is n d b → f64_of_ratio n d = Some b.
Proof.
  intros Hn Hd Hb H. unfold ratio_is, f64_sig, f64_exp, f64_mag in H.
  rewrite (Z.mod_small b) in H by (rewrite p52, p63 in *; lia).
  set (E := b / 2 ^ 52) in *. set (f := b mod 2 ^ 52) in *.
  assert (b = 2 ^ 52 * E + f) as Eb by (apply Z.div_mod; rewrite p52; lia).
  assert (0 ≤ f < 2 ^ 52) as Hf by (apply Z.mod_pos_bound; rewrite p52; lia).
  assert (0 ≤ E < 2047) as HE by (rewrite p52 in *; lia).
  set (q := if E =? 0 then f else 2 ^ 52 + f) in *. set (e := Z.max 1 E - 1075) in *.
  assert (-1074 ≤ e) as He by (unfold e; lia).
  assert (b = (e + 1074) * 2 ^ 52 + q) as Eb2 by (unfold e, q; destruct (Z.eqb_spec E 0); rewrite ?p52 in *; lia).
  assert (0 ≤ q < 2 ^ 53) as Hq by (unfold q; rewrite p52, p53 in *; destruct (Z.eqb_spec E 0); lia).
  unfold f64_of_ratio. destruct (Z.eqb_spec n 0) as [->|Hn0].
  - assert (q = 0) as Hq0.
    { pose proof (pow2_pos (e + 1074) ltac:(lia)). nia. }
    unfold q in Hq0. rewrite p52 in *. destruct (Z.eqb_spec E 0); [|lia]. f_equal. lia.
  - assert (0 < q) as Hq0.
    { destruct (decide (q = 0)) as [Hz|]; [|lia]. rewrite Hz in H. pose proof (pow2_pos 1074 ltac:(lia)). nia. }
    (* the exponent found *)
    assert (Z.max (-1074) (floor_log2 n d - 52) = e) as ->.
    { set (s := 1074 + Z.log2 d + 1).
      pose proof (Z.log2_nonneg d) as Hld. pose proof (Z.log2_nonneg q) as Hlq.
      pose proof (Z.log2_spec q Hq0) as [Q1 Q2].
      assert (floor_log2 n d = Z.log2 q + e) as ->.
      { apply (floor_log2_unique _ _ _ s); try (unfold s; lia).
        assert (n * 2 ^ s = d * (q * 2 ^ (e + s))) as Es.
        { unfold s. replace (1074 + Z.log2 d + 1) with (1074 + (Z.log2 d + 1)) by lia.
          rewrite (Z.pow_add_r 2 1074), Z.mul_assoc, H by lia.
          replace (e + (1074 + (Z.log2 d + 1))) with (e + 1074 + (Z.log2 d + 1)) by lia.
          rewrite (Z.pow_add_r 2 (e + 1074)) by lia. ring. }
        rewrite Es. replace (Z.log2 q + e + s + 1) with (Z.succ (Z.log2 q) + (e + s)) by lia.
        replace (Z.log2 q + e + s) with (Z.log2 q + (e + s)) by lia.
        rewrite (Z.pow_add_r 2 (Z.log2 q)), (Z.pow_add_r 2 (Z.succ (Z.log2 q))) by (unfold s; lia). pose proof (pow2_pos (e + s) ltac:(unfold s; lia)). split; [apply Z.mul_le_mono_nonneg_l; [lia|]; apply Z.mul_le_mono_nonneg_r; lia|apply Z.mul_lt_mono_pos_l; [lia|]; apply Z.mul_lt_mono_pos_r; lia]. }
      unfold q in *. destruct (Z.eqb_spec E 0) as [HE0|HE0].
      - assert (Z.log2 f < 52) by (apply Z.log2_lt_pow2; lia). unfold e. lia.
      - assert (Z.log2 (2 ^ 52 + f) = 52) as ->.
        { apply (Z.log2_unique' _ 52 f); lia. }
        lia. }
    assert ((if 0 <=? e then round_even n (d * 2 ^ e) else round_even (n * 2 ^ (- e)) d) = q) as ->.
    { pose proof (pow2_pos 1074 ltac:(lia)) as P. destruct (Z.leb_spec 0 e) as [Hp|Hp].
      - assert (n = q * (d * 2 ^ e)) as ->.
        { rewrite Z.pow_add_r in H by lia. nia. }
        apply round_even_exact. pose proof (pow2_pos e Hp). nia.
      - assert (n * 2 ^ (- e) = q * d) as ->.
        { assert (2 ^ 1074 = 2 ^ (e + 1074) * 2 ^ (- e)) as E1 by (rewrite <- Z.pow_add_r by lia; f_equal; lia).
          rewrite E1 in H. pose proof (pow2_pos (e + 1074) ltac:(lia)). nia. }
        by apply round_even_exact. }
    rewrite <- Eb2. destruct (Z.ltb_spec b (2047 * 2 ^ 52)); [done|lia].
Qed.

(** Printing the exact decimal expansion is one way to write every double so that
    it is read back (strconv's shortest form is another). *)
Definition exact_decimal (b : Z) : bool * Z * Z :=
  let q := f64_sig b in let e := f64_exp b in
  (f64_neg b, if 0 <=? e then q * 2 ^ e else q * 5 ^ (- e), if 0 <=? e then 0 else e).
Lemma finite64_spec b : finite64 b = true ↔ 0 ≤ b < 2 ^ 64 ∧ f64_mag b < 2047 * 2 ^ 52.
Proof. unfold finite64. rewrite !andb_true_iff, Z.leb_le, !Z.ltb_lt. lia. Qed.
Lemma sig_mag b : f64_sig (f64_mag b) = f64_sig b.
Proof. unfold f64_sig, f64_mag. by rewrite Z.mod_mod by (rewrite p63; lia). Qed.
Lemma exp_mag b : f64_exp (f64_mag b) = f64_exp b.
Proof. unfold f64_exp, f64_mag. by rewrite Z.mod_mod by (rewrite p63; lia). Qed.
Lemma mag_bound b : 0 ≤ f64_mag b < 2 ^ 63.
Proof. apply Z.mod_pos_bound. rewrite p63. lia. Qed.
Lemma sig_nonneg b : 0 ≤ f64_sig b.
Proof.
  unfold f64_sig. pose proof (Z.mod_pos_bound (f64_mag b) (2 ^ 52) ltac:(rewrite p52; lia)). rewrite p52 in *.
  destruct (_ =? _); lia.
Qed.
Lemma exp_ge b : -1074 ≤ f64_exp b.
Proof. unfold f64_exp. lia. Qed.
Lemma sign_join b : 0 ≤ b < 2 ^ 64 → (if f64_neg b then 2 ^ 63 + f64_mag b else f64_mag b) = b.
Proof.
  intros H. unfold f64_neg, f64_mag. rewrite p63, p64 in *. destruct (Z.leb_spec 9223372036854775808 b).
  - rewrite <- (Z.mod_unique_pos b 9223372036854775808 1 (b - 9223372036854775808)); lia.
  - rewrite Z.mod_small; lia.
Qed.
Lemma exact_decimal_ok b : finite64 b = true →
  let '(neg, m, e) := exact_decimal b in 0 ≤ m ∧ f64_of_dec neg m e = Some b.
Proof.
  rewrite finite64_spec. intros [Hb Hm]. unfold exact_decimal.
  pose proof (sig_nonneg b) as Hs. pose proof (exp_ge b) as He.
  assert (∀ n d, 0 ≤ n → 0 < d → n * 2 ^ 1074 = d * (f64_sig b * 2 ^ (f64_exp b + 1074)) → f64_of_ratio n d = Some (f64_mag b)) as Hx.
  { intros n d Hn Hd H. apply f64_of_ratio_exact; [done|done|pose proof (mag_bound b); lia|].
    unfold ratio_is. by rewrite sig_mag, exp_mag. }
  unfold f64_of_dec. destruct (Z.leb_spec 0 (f64_exp b)) as [Hp|Hp].
  - split; [pose proof (pow2_pos _ Hp); nia|]. destruct (Z.leb_spec 0 0); [|lia].
    rewrite Hx; [by rewrite sign_join|pose proof (pow2_pos _ Hp); change (10 ^ 0) with 1; nia|lia|].
    change (10 ^ 0) with 1. rewrite Z.pow_add_r by lia. ring.
  - pose proof (Z.pow_pos_nonneg 5 (- f64_exp b) ltac:(lia) ltac:(lia)) as P5. split; [nia|].
    destruct (Z.leb_spec 0 (f64_exp b)); [lia|].
    rewrite Hx; [by rewrite sign_join|nia|apply Z.pow_pos_nonneg; lia|].
    assert (2 ^ 1074 = 2 ^ (f64_exp b + 1074) * 2 ^ (- f64_exp b)) as -> by (rewrite <- Z.pow_add_r by lia; f_equal; lia).
    change 10 with (2 * 5). rewrite Z.pow_mul_l. ring.
Qed.

(** Integers up to 2^53 are read exactly, and any 64-bit integer is read. *)
Definition f64_is_int (b z : Z) : Prop :=
  finite64 b = true ∧ f64_neg b = (z <? 0) ∧ Z.abs z * 2 ^ 1074 = f64_sig b * 2 ^ (f64_exp b + 1074).
Definition f64_of_Z (z : Z) : option Z := f64_of_dec (z <? 0) (Z.abs z) 0.
Lemma round_even_le n d : 0 < d → round_even n d ≤ n / d + 1.
Proof.
  intros Hd. unfold round_even. destruct (_ <? _); [lia|]. destruct (_ <? _); [lia|]. destruct (Z.even _); lia.
Qed.
Lemma round_even_nonneg n d : 0 < d → 0 ≤ n → 0 ≤ round_even n d.
Proof.
  intros Hd Hn. pose proof (Z.div_pos n d Hn Hd). unfold round_even.
  destruct (_ <? _); [lia|]. destruct (_ <? _); [lia|]. destruct (Z.even _); lia.
Qed.
(** The significand computed is at most 2^53, the exponent within 53 of the size. *)
Lemma f64_of_int_some a : 0 ≤ a ≤ 2 ^ 64 → ∃ b, f64_of_ratio a 1 = Some b ∧ 0 ≤ b < 2047 * 2 ^ 52.
Proof.
  intros Ha. unfold f64_of_ratio. destruct (Z.eqb_spec a 0) as [->|Hn]; [exists 0; split; [done|rewrite p52; lia]|].
  destruct (floor_log2_spec a 1 1 ltac:(lia) ltac:(lia) ltac:(lia) ltac:(simpl; lia)) as [F1 F2].
  set (k := floor_log2 a 1) in *.
  assert (0 ≤ k) as Hk0.
  { unfold k, floor_log2, le_scaled. pose proof (Z.log2_nonneg a). change (Z.log2 1) with 0. rewrite Z.sub_0_r.
    destruct (Z.leb_spec 0 (Z.log2 a)); [|lia]. destruct (Z.leb_spec (1 * 2 ^ Z.log2 a) a); [lia|].
    pose proof (Z.log2_spec a ltac:(lia)). lia. }
  assert (2 ^ k ≤ a < 2 ^ (k + 1)) as [G1 G2].
  { rewrite (Z.pow_add_r 2 (k + 1) 1) in F2 by lia. rewrite (Z.pow_add_r 2 k 1) in F1 by lia. lia. }
  assert (k ≤ 64) as Hk.
  { apply (Z.pow_le_mono_r_iff 2); lia. }
  destruct (Z.max_spec (-1074) (k - 52)) as [[_ ->]|[? _]]; [|lia].
  set (q := if 0 <=? k - 52 then _ else _).
  assert (0 ≤ q ≤ 2 ^ 53) as Hq.
  { unfold q. destruct (Z.leb_spec 0 (k - 52)) as [Hp|Hp].
    - pose proof (pow2_pos _ Hp) as P. split; [apply round_even_nonneg; lia|].
      etransitivity; [apply round_even_le; lia|].
      assert (a / (1 * 2 ^ (k - 52)) < 2 ^ 53); [|lia]. apply Z.div_lt_upper_bound; [lia|].
      rewrite Z.mul_1_l, <- Z.pow_add_r by lia. replace (k - 52 + 53) with (k + 1) by lia. lia.
    - pose proof (pow2_pos (- (k - 52)) ltac:(lia)) as P. split; [apply round_even_nonneg; lia|].
      etransitivity; [apply round_even_le; lia|]. rewrite Z.div_1_r.
      assert (a * 2 ^ (- (k - 52)) < 2 ^ 53); [|lia].
      replace 53 with (k + 1 + - (k - 52)) by lia. rewrite (Z.pow_add_r 2 (k + 1)) by lia.
      apply Z.mul_lt_mono_pos_r; lia. }
  exists ((k - 52 + 1074) * 2 ^ 52 + q). rewrite p52, p53 in *.
  destruct (Z.ltb_spec ((k - 52 + 1074) * 4503599627370496 + q) (2047 * 4503599627370496)); [split; [done|lia]|lia].
Qed.
Lemma sign_bits b neg : 0 ≤ b < 2047 * 2 ^ 52 →
  let b' := if neg : bool then 2 ^ 63 + b else b in finite64 b' = true ∧ f64_mag b' = b ∧ f64_neg b' = neg.
Proof.
  intros H b'. rewrite finite64_spec. unfold b', f64_mag, f64_neg. rewrite p52, p63, p64 in *. destruct neg.
  - rewrite <- (Z.mod_unique_pos (9223372036854775808 + b) 9223372036854775808 1 b) by lia.
    destruct (Z.leb_spec 9223372036854775808 (9223372036854775808 + b)); lia.
  - rewrite Z.mod_small by lia. destruct (Z.leb_spec 9223372036854775808 b); lia.
Qed.
Lemma f64_of_Z_some z : - 2 ^ 64 ≤ z ≤ 2 ^ 64 → ∃ b, f64_of_Z z = Some b ∧ finite64 b = true.
Proof.
  intros Hz. destruct (f64_of_int_some (Z.abs z)) as (b & E & Hb); [lia|].
  unfold f64_of_Z, f64_of_dec. change (0 <=? 0) with true. cbn match. change (10 ^ 0) with 1. rewrite Z.mul_1_r, E.
  eexists. split; [reflexivity|]. exact (proj1 (sign_bits b (z <? 0) Hb)).
Qed.
Lemma f64_of_Z_exact z : Z.abs z ≤ 2 ^ 53 → ∃ b, f64_of_Z z = Some b ∧ f64_is_int b z.
Proof.
  intros Hz. set (a := Z.abs z) in *.
  assert (∃ b, 0 ≤ b < 2047 * 2 ^ 52 ∧ ratio_is a 1 b) as (b & Hb & Hr).
  { destruct (decide (a = 0)) as [->|Ha0].
    { exists 0. split; [rewrite p52; lia|]. reflexivity. }
    destruct (decide (a = 2 ^ 53)) as [->|Hm].
    { exists (1076 * 2 ^ 52). split; [rewrite p52; lia|]. vm_compute. reflexivity. }
    pose proof (Z.log2_spec a ltac:(lia)) as [L1 L2]. pose proof (Z.log2_nonneg a) as L0.
    set (k := Z.log2 a) in *.
    assert (k < 53) as Hk by (apply (Z.pow_lt_mono_r_iff 2); lia).
    set (q := a * 2 ^ (52 - k)).
    assert (2 ^ 52 ≤ q < 2 ^ 53) as Hq.
    { unfold q. replace 52 with (k + (52 - k)) at 1 by lia. rewrite (Z.pow_add_r 2 k) by lia.
      replace 53 with (Z.succ k + (52 - k)) by lia. rewrite (Z.pow_add_r 2 (Z.succ k)) by lia.
      pose proof (pow2_pos (52 - k) ltac:(lia)). split; [apply Z.mul_le_mono_nonneg_r; lia|apply Z.mul_lt_mono_pos_r; lia]. }
    exists ((k + 1023) * 2 ^ 52 + (q - 2 ^ 52)).
    assert (((k + 1023) * 2 ^ 52 + (q - 2 ^ 52)) / 2 ^ 52 = k + 1023) as Ed.
    { symmetry. apply (Z.div_unique_pos _ _ _ (q - 2 ^ 52)); rewrite p52, p53 in *; lia. }
    assert (((k + 1023) * 2 ^ 52 + (q - 2 ^ 52)) mod 2 ^ 52 = q - 2 ^ 52) as Em.
    { symmetry. apply (Z.mod_unique_pos _ _ (k + 1023)); rewrite p52, p53 in *; lia. }
    split; [rewrite p52, p53 in *; lia|]. unfold ratio_is, f64_sig, f64_exp, f64_mag.
    rewrite (Z.mod_small _ (2 ^ 63)) by (rewrite p52, p53, p63 in *; lia). rewrite Ed, Em.
    destruct (Z.eqb_spec (k + 1023) 0); [lia|]. destruct (Z.max_spec 1 (k + 1023)) as [[_ ->]|[? _]]; [|lia].
    replace (2 ^ 52 + (q - 2 ^ 52)) with q by lia. unfold q. rewrite Z.mul_1_l, <- Z.mul_assoc, <- Z.pow_add_r by lia.
    f_equal. f_equal. lia. }
  unfold f64_of_Z, f64_of_dec. change (0 <=? 0) with true. cbn match. change (10 ^ 0) with 1. rewrite Z.mul_1_r.
  fold a. rewrite (f64_of_ratio_exact a 1 b) by (try done; unfold a; lia).
  destruct (sign_bits b (z <? 0) Hb) as (H1 & H2 & H3). eexists. split; [reflexivity|].
  split; [exact H1|]. split; [exact H3|].
  unfold ratio_is in Hr. fold a. rewrite Hr, Z.mul_1_l. rewrite <- (sig_mag (if z <? 0 then _ else _)), <- (exp_mag (if z <? 0 then _ else _)), H2.
  done.
Qed.
(** Beyond that different integers give the same double. *)
Lemma f64_of_Z_collides : f64_of_Z (2 ^ 53) = f64_of_Z (2 ^ 53 + 1).
Proof. vm_compute. reflexivity. Qed.
