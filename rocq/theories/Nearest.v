(** * The double nearest to a decimal, independently of how strconv finds it. *)
From Verif Require Export Float64.
From Coq Require Import Lia.
Local Open Scope Z_scope.

(** ** Specification *)
(** The bits of a finite double without its sign: 11 of exponent, 52 of fraction. *)
Definition magnitude (b : Z) : Prop := 0 ≤ b < 0x7FF0000000000000.
(** Its value, as a multiple of the smallest positive double 2^-1074. *)
Definition f64_units (b : Z) : Z :=
  let exponent := b / 2 ^ 52 in let fraction := b mod 2 ^ 52 in
  if exponent =? 0 then fraction else (2 ^ 52 + fraction) * 2 ^ (exponent - 1).
(** How far it is from n/d, times d * 2^1074. *)
Definition miss (n d b : Z) : Z := Z.abs (n * 2 ^ 1074 - d * f64_units b).
(** IEEE-754 roundTiesToEven. *)
Definition nearest_to (n d b : Z) : Prop :=
  magnitude b ∧ ∀ b', magnitude b' → b' ≠ b → miss n d b < miss n d b' ∨ (miss n d b = miss n d b' ∧ Z.even b = true).
(** n/d is at least halfway between the largest double and 2^1024. *)
Definition too_big (n d : Z) : Prop := d * ((2 ^ 54 - 1) * 2 ^ 970) ≤ n.

(** The magnitude m * 10^e as a fraction. *)
Definition numer (m e : Z) : Z := if 0 <=? e then m * 10 ^ e else m.
Definition denom (e : Z) : Z := if 0 <=? e then 1 else 10 ^ (- e).
(** [b] are the bits of the double for (-)m * 10^e. *)
Definition double_for (neg : bool) (m e b : Z) : Prop :=
  ∃ mag, nearest_to (numer m e) (denom e) mag ∧ ¬ too_big (numer m e) (denom e) ∧ b = (if neg then 2 ^ 63 else 0) + mag.

(** ** Proofs *)
Lemma units_form E q : 0 ≤ E → 0 ≤ q ≤ 2 ^ 53 → (E = 0 ∨ 2 ^ 52 ≤ q) → f64_units (E * 2 ^ 52 + q) = q * 2 ^ E.
Proof.
  intros HE Hq Hn. unfold f64_units. rewrite p53 in Hq.
  destruct (decide (q < 2 ^ 52)) as [H1|H1]; [|destruct (decide (q < 2 ^ 53)) as [H2|H2]].
  - assert (E = 0) as -> by lia. rewrite Z.mul_0_l, Z.add_0_l. rewrite Z.div_small, Z.mod_small by lia.
    change (0 =? 0) with true. cbv iota. lia.
  - assert ((E * 2 ^ 52 + q) / 2 ^ 52 = E + 1) as -> by (symmetry; apply (Z.div_unique_pos _ _ _ (q - 2 ^ 52)); rewrite p52 in *; lia).
    assert ((E * 2 ^ 52 + q) mod 2 ^ 52 = q - 2 ^ 52) as -> by (symmetry; apply (Z.mod_unique_pos _ _ (E + 1)); rewrite p52 in *; lia).
    destruct (Z.eqb_spec (E + 1) 0); [lia|]. rewrite Z.add_simpl_r. f_equal. lia.
  - assert (q = 2 * 2 ^ 52) as -> by (rewrite p52, p53 in *; lia).
    assert ((E * 2 ^ 52 + 2 * 2 ^ 52) / 2 ^ 52 = E + 2) as -> by (rewrite <- Z.mul_add_distr_r; apply Z.div_mul; rewrite p52; lia).
    assert ((E * 2 ^ 52 + 2 * 2 ^ 52) mod 2 ^ 52 = 0) as -> by (rewrite <- Z.mul_add_distr_r; apply Z.mod_mul; rewrite p52; lia).
    destruct (Z.eqb_spec (E + 2) 0); [lia|]. replace (E + 2 - 1) with (1 + E) by lia. rewrite Z.pow_add_r by lia. change (2 ^ 1) with 2. ring.
Qed.
(** Every magnitude has that form. *)
Lemma magnitude_form b : 0 ≤ b → ∃ E q, 0 ≤ E ∧ 0 ≤ q < 2 ^ 53 ∧ (E = 0 ∨ 2 ^ 52 ≤ q) ∧ b = E * 2 ^ 52 + q.
Proof.
  intros Hb. pose proof (Z.div_mod b (2 ^ 52) ltac:(rewrite p52; lia)) as Hd.
  pose proof (Z.mod_pos_bound b (2 ^ 52) ltac:(rewrite p52; lia)) as Hm. pose proof (Z.div_pos b (2 ^ 52) Hb ltac:(rewrite p52; lia)) as Hp.
  destruct (decide (b / 2 ^ 52 = 0)) as [E|E].
  - exists 0, (b mod 2 ^ 52). rewrite p52, p53 in *. lia.
  - exists (b / 2 ^ 52 - 1), (2 ^ 52 + b mod 2 ^ 52). rewrite p52, p53 in *. lia.
Qed.
Lemma units_succ b : 0 ≤ b → f64_units b < f64_units (b + 1).
Proof.
  intros Hb. destruct (magnitude_form b Hb) as (E & q & HE & Hq & Hn & ->).
  replace (E * 2 ^ 52 + q + 1) with (E * 2 ^ 52 + (q + 1)) by lia. rewrite !units_form by lia.
  pose proof (pow2_pos E HE). nia.
Qed.
Lemma units_mono b b' : 0 ≤ b → b ≤ b' → f64_units b ≤ f64_units b'.
Proof.
  intros Hb H. replace b' with (b + Z.of_nat (Z.to_nat (b' - b))) by lia. generalize (Z.to_nat (b' - b)). clear H b'.
  induction n as [|n IH]; [rewrite Z.add_0_r; lia|]. replace (b + Z.of_nat (S n)) with (b + Z.of_nat n + 1) by lia.
  pose proof (units_succ (b + Z.of_nat n) ltac:(lia)). lia.
Qed.
Lemma round_even_spec n d : 0 < d → 2 * Z.abs (n - d * round_even n d) ≤ d ∧
  (2 * Z.abs (n - d * round_even n d) = d → Z.even (round_even n d) = true).
Proof.
  intros Hd. unfold round_even. pose proof (Z.div_mod n d ltac:(lia)) as E. pose proof (Z.mod_pos_bound n d Hd) as B.
  set (q := n / d) in *. set (r := n mod d) in *.
  destruct (Z.ltb_spec (2 * r) d); [|destruct (Z.ltb_spec d (2 * r)); [|destruct (Z.even q) eqn:Eq]].
  - replace (n - d * q) with r by lia. split; [lia|]. intros ?. lia.
  - replace (n - d * (q + 1)) with (r - d) by lia. split; [lia|]. intros ?. lia.
  - replace (n - d * q) with r by lia. split; [lia|done].
  - replace (n - d * (q + 1)) with (r - d) by lia. split; [lia|]. intros _. rewrite Z.add_1_r, Z.even_succ. by rewrite <- Z.negb_even, Eq.
Qed.
(** The significand and exponent [f64_of_ratio] computes. *)
Lemma ratio_parts n d : 0 < n → 0 < d →
  let e := Z.max (-1074) (floor_log2 n d - 52) in
  let q := if 0 <=? e then round_even n (d * 2 ^ e) else round_even (n * 2 ^ (- e)) d in
  let E := e + 1074 in
  0 ≤ E ∧ 0 ≤ q ≤ 2 ^ 53 ∧ (E = 0 ∨ 2 ^ 52 ≤ q ∧ d * (2 ^ 52 * 2 ^ E) ≤ n * 2 ^ 1074) ∧
  2 * Z.abs (n * 2 ^ 1074 - d * (q * 2 ^ E)) ≤ d * 2 ^ E ∧
  (2 * Z.abs (n * 2 ^ 1074 - d * (q * 2 ^ E)) = d * 2 ^ E → Z.even q = true).
Proof.
  intros Hn Hd e q E. set (X := n * 2 ^ 1074).
  assert (0 ≤ E) as HE by (unfold E, e; lia).
  pose proof (pow2_pos E HE) as PE.
  (* rounding *)
  assert (2 * Z.abs (X - d * (q * 2 ^ E)) ≤ d * 2 ^ E ∧ (2 * Z.abs (X - d * (q * 2 ^ E)) = d * 2 ^ E → Z.even q = true)) as [R1 R2].
  { unfold q. destruct (Z.leb_spec 0 e) as [He|He].
    - pose proof (pow2_pos e He) as Pe. pose proof (pow2_pos 1074 ltac:(lia)) as P.
      destruct (round_even_spec n (d * 2 ^ e) ltac:(nia)) as [A1 A2]. set (r := round_even n (d * 2 ^ e)) in *.
      assert (2 ^ E = 2 ^ e * 2 ^ 1074) as EE by (unfold E; rewrite Z.pow_add_r by lia; done).
      unfold X. rewrite EE. set (P2 := 2 ^ 1074) in *. clearbody P2.
      replace (n * P2 - d * (r * (2 ^ e * P2))) with ((n - d * 2 ^ e * r) * P2) by ring.
      rewrite Z.abs_mul, (Z.abs_eq P2) by lia. split; [nia|]. intros H. apply A2. nia.
    - pose proof (pow2_pos (- e) ltac:(lia)) as Pe.
      destruct (round_even_spec (n * 2 ^ (- e)) d Hd) as [A1 A2]. set (r := round_even (n * 2 ^ (- e)) d) in *.
      assert (2 ^ 1074 = 2 ^ (- e) * 2 ^ E) as EE by (unfold E; rewrite <- Z.pow_add_r by (unfold E in HE; lia); f_equal; lia).
      unfold X. rewrite EE. set (P2 := 2 ^ E) in *. clearbody P2.
      replace (n * (2 ^ (- e) * P2) - d * (r * P2)) with ((n * 2 ^ (- e) - d * r) * P2) by ring.
      rewrite Z.abs_mul, (Z.abs_eq P2) by lia. split; [nia|]. intros H. apply A2. nia. }
  (* size *)
  set (k := floor_log2 n d) in *.
  assert (X < d * (2 ^ 53 * 2 ^ E)) as Hhi.
  { set (s := 1074 + Z.log2 d + 1 + Z.abs k). pose proof (Z.log2_nonneg d) as Hl.
    destruct (floor_log2_spec n d s Hn Hd ltac:(unfold s; lia) ltac:(unfold s; lia)) as [_ F2]. fold k in F2.
    assert (2 ^ s = 2 ^ 1074 * 2 ^ (s - 1074)) as Es by (rewrite <- Z.pow_add_r by (unfold s; lia); f_equal; lia).
    assert (2 ^ (k + s + 1) ≤ 2 ^ 53 * 2 ^ E * 2 ^ (s - 1074)) as Le.
    { rewrite <- !Z.pow_add_r by (unfold s; lia). apply Z.pow_le_mono_r; [lia|]. unfold E, e. lia. }
    pose proof (pow2_pos (s - 1074) ltac:(unfold s; lia)) as Ps. unfold X. rewrite Es in F2. clear -F2 Le Ps Hd. nia. }
  assert (E = 0 ∨ d * (2 ^ 52 * 2 ^ E) ≤ X) as Hlo.
  { destruct (decide (E = 0)) as [|H0]; [by left|right].
    assert (e = k - 52) as Ee by (unfold E, e in *; lia).
    set (s := 1074 + Z.log2 d + 1 + Z.abs k). pose proof (Z.log2_nonneg d) as Hl.
    destruct (floor_log2_spec n d s Hn Hd ltac:(unfold s; lia) ltac:(unfold s; lia)) as [F1 _]. fold k in F1.
    assert (2 ^ s = 2 ^ 1074 * 2 ^ (s - 1074)) as Es by (rewrite <- Z.pow_add_r by (unfold s; lia); f_equal; lia).
    assert (2 ^ (k + s) = 2 ^ 52 * 2 ^ E * 2 ^ (s - 1074)) as Le.
    { rewrite <- !Z.pow_add_r by (unfold s; lia). f_equal. unfold E. lia. }
    pose proof (pow2_pos (s - 1074) ltac:(unfold s; lia)) as Ps. unfold X. rewrite Es, Le in F1. clear -F1 Ps Hd. nia. }
  clearbody q. clearbody e. unfold X in *. pose proof (pow2_pos 1074 ltac:(lia)) as P. assert (0 < n * 2 ^ 1074) as HX by nia.
  fold X in HX, R1, R2, Hhi, Hlo |- *. clearbody X. clearbody E. clear P.
  assert (2 ^ 53 = 2 * 2 ^ 52) as E53 by reflexivity. pose proof (pow2_pos 52 ltac:(lia)) as P52. rewrite E53 in *. generalize dependent (2 ^ 52).
  intros P52 ? ? ? ?. set (A := d * 2 ^ E) in *. assert (0 < A) by nia. 
  replace (d * (q * 2 ^ E)) with (q * A) in * by (unfold A; ring).
  replace (d * (2 * P52 * 2 ^ E)) with (2 * P52 * A) in * by (unfold A; ring).
  replace (d * (P52 * 2 ^ E)) with (P52 * A) in * by (unfold A; ring). clearbody A.
  split_and!; try done; try nia.
Qed.
Lemma f64_of_ratio_nearest n d b : 0 ≤ n → 0 < d → f64_of_ratio n d = Some b → nearest_to n d b ∧ ¬ too_big n d.
Proof.
  intros Hn Hd. unfold f64_of_ratio. destruct (Z.eqb_spec n 0) as [->|Hn0].
  { intros [= <-]. split.
    - split; [unfold magnitude; lia|]. intros b' Hb' Hne. left. unfold miss. unfold magnitude in Hb'.
      pose proof (units_succ 0 ltac:(lia)) as U0. pose proof (units_mono 1 b' ltac:(lia) ltac:(lia)) as U1.
      change (f64_units 0) with 0 in *. change (0 + 1) with 1 in U0. rewrite Z.mul_0_l, Z.mul_0_r. change (Z.abs (0 - 0)) with 0. nia.
    - unfold too_big. assert (0 < (2 ^ 54 - 1) * 2 ^ 970) by reflexivity. nia. }
  destruct (ratio_parts n d ltac:(lia) Hd) as (HE & Hq & Hlo & R1 & R2).
  set (e := Z.max _ _) in *. set (q := if 0 <=? e then _ else _) in *. set (E := e + 1074) in *. clearbody q.
  change (2047 * 2 ^ 52) with 0x7FF0000000000000.
  destruct (Z.ltb_spec (E * 2 ^ 52 + q) 0x7FF0000000000000) as [Hlt|]; [|done]. intros [= <-].
  clearbody E. clear e. pose proof (pow2_pos E HE) as PE.
  assert (E = 0 ∨ 2 ^ 52 ≤ q) as Hn1 by tauto.
  split.
  - split; [unfold magnitude; rewrite p52 in *; lia|]. intros b' Hb' Hne. unfold miss. unfold magnitude in Hb'.
    rewrite (units_form E q) by done. set (X := n * 2 ^ 1074) in *. clearbody X.
    assert (Z.even (E * 2 ^ 52 + q) = Z.even q) as ->.
    { rewrite Z.even_add, Z.even_mul. change (Z.even (2 ^ 52)) with true. rewrite orb_true_r. by destruct (Z.even q). }
    destruct (decide (E * 2 ^ 52 + q < b')) as [Hgt|Hle].
    + (* above *)
      assert ((q + 1) * 2 ^ E ≤ f64_units b') as Hu.
      { destruct (decide (q = 2 ^ 53)) as [->|Hq53].
        - pose proof (units_mono ((E + 1) * 2 ^ 52 + (2 ^ 52 + 1)) b' ltac:(rewrite p52 in *; lia) ltac:(rewrite p52, p53 in *; lia)) as M.
          rewrite units_form in M by (rewrite ?p52, ?p53; lia). rewrite Z.pow_add_r in M by lia. change (2 ^ 1) with 2 in M.
          assert ((2 ^ 53 + 1) * 2 ^ E ≤ (2 ^ 52 + 1) * (2 ^ E * 2)); [|lia]. rewrite p52, p53. lia.
        - pose proof (units_mono (E * 2 ^ 52 + (q + 1)) b' ltac:(rewrite p52 in *; lia) ltac:(lia)) as M.
          rewrite units_form in M by lia. exact M. }
      assert (d * (q * 2 ^ E) + d * 2 ^ E ≤ d * f64_units b') as Hu2 by nia.
      destruct (decide (2 * Z.abs (X - d * (q * 2 ^ E)) = d * 2 ^ E)) as [Heq|Hneq]; [|left; lia].
      specialize (R2 Heq). destruct (decide (Z.abs (X - d * (q * 2 ^ E)) = Z.abs (X - d * f64_units b'))); [right; done|left; lia].
    + (* below *)
      destruct (decide (E ≠ 0 ∧ q = 2 ^ 52)) as [[HE0 ->]|Hnb].
      * left. destruct Hlo as [?|[_ Hlo]]; [done|].
        pose proof (units_mono b' (E * 2 ^ 52 + 2 ^ 52 - 1) ltac:(lia) ltac:(lia)) as M.
        pose proof (units_succ (E * 2 ^ 52 + 2 ^ 52 - 1) ltac:(rewrite p52 in *; lia)) as M2. rewrite Z.sub_add in M2.
        rewrite (units_form E (2 ^ 52)) in M2 by done. nia.
      * assert (f64_units b' ≤ (q - 1) * 2 ^ E) as Hu.
        { pose proof (units_mono b' (E * 2 ^ 52 + (q - 1)) ltac:(lia) ltac:(lia)) as M.
          destruct (decide (q = 0)) as [->|Hq0]; [destruct Hn1 as [->|Hx]; [lia|rewrite p52 in Hx; lia]|].
          rewrite units_form in M by lia. exact M. }
        assert (d * f64_units b' ≤ d * (q * 2 ^ E) - d * 2 ^ E) as Hu2 by nia.
        destruct (decide (2 * Z.abs (X - d * (q * 2 ^ E)) = d * 2 ^ E)) as [Heq|Hneq]; [|left; lia].
        specialize (R2 Heq). destruct (decide (Z.abs (X - d * (q * 2 ^ E)) = Z.abs (X - d * f64_units b'))); [right; done|left; lia].
  - unfold too_big. intros Hb.
    assert (d * ((2 ^ 54 - 1) * 2 ^ 2044) ≤ n * 2 ^ 1074) as Hb2.
    { assert (2 ^ 2044 = 2 ^ 970 * 2 ^ 1074) as -> by (rewrite <- Z.pow_add_r by lia; f_equal; lia). pose proof (pow2_pos 1074 ltac:(lia)). nia. }
    clear Hb. set (X := n * 2 ^ 1074) in *. clearbody X.
    assert (E ≤ 2045) as HE2 by (rewrite p52 in *; lia).
    destruct (decide (E = 2045)) as [->|HE3].
    + assert (q < 2 ^ 53) as Hq2 by (rewrite p52, p53 in *; lia).
      assert (2 ^ 2045 = 2 * 2 ^ 2044) as E2 by (rewrite <- (Z.pow_add_r 2 1) by lia; f_equal; lia). rewrite E2 in *.
      set (P := 2 ^ 2044) in *. clearbody P. change (2 ^ 54) with (2 * 2 ^ 53) in Hb2.
      set (A := d * P) in *. assert (0 < A) by nia. replace (d * (q * (2 * P))) with (2 * q * A) in * by (unfold A; ring).
      replace (d * (2 * P)) with (2 * A) in * by (unfold A; ring). replace (d * ((2 * 2 ^ 53 - 1) * P)) with ((2 * 2 ^ 53 - 1) * A) in * by (unfold A; ring). clearbody A.
      assert (q = 2 ^ 53 - 1) as Eq by nia. assert (2 * Z.abs (X - 2 * q * A) = 2 * A) as Et by nia.
      specialize (R2 Et). rewrite Eq in R2. vm_compute in R2. done.
    + assert (2 ^ E ≤ 2 ^ 2044) as Hp by (apply Z.pow_le_mono_r; lia). set (P := 2 ^ 2044) in *. clearbody P.
      set (F := 2 ^ E) in *. clearbody F. change (2 ^ 54) with (2 * 2 ^ 53) in Hb2. assert (d * (q * F) ≤ d * (2 ^ 53 * F)) by nia.
      assert (2 * X ≤ d * F * (2 * 2 ^ 53 + 1)) by lia. assert (d * F ≤ d * P) by nia. set (A := d * P) in *. set (B := d * F) in *.
      replace (d * ((2 * 2 ^ 53 - 1) * P)) with ((2 * 2 ^ 53 - 1) * A) in * by (unfold A; ring). assert (0 < B) by (unfold B; nia). clearbody A B.
      rewrite p53 in *. lia.
Qed.
Lemma f64_of_ratio_none n d : 0 ≤ n → 0 < d → f64_of_ratio n d = None → too_big n d.
Proof.
  intros Hn Hd. unfold f64_of_ratio. destruct (Z.eqb_spec n 0) as [->|Hn0]; [done|].
  destruct (ratio_parts n d ltac:(lia) Hd) as (HE & Hq & Hlo & R1 & R2).
  set (e := Z.max _ _) in *. set (q := if 0 <=? e then _ else _) in *. set (E := e + 1074) in *. clearbody q.
  change (2047 * 2 ^ 52) with 0x7FF0000000000000.
  destruct (Z.ltb_spec (E * 2 ^ 52 + q) 0x7FF0000000000000) as [|Hge]; [done|]. intros _.
  clearbody E. clear e. pose proof (pow2_pos E HE) as PE. unfold too_big.
  assert (d * ((2 ^ 54 - 1) * 2 ^ 2044) ≤ n * 2 ^ 1074) as Hb2.
  { assert (2045 ≤ E) as HE2 by (rewrite p52, p53 in *; lia).
    destruct (decide (E = 2045)) as [->|HE3].
    - assert (q = 2 ^ 53) as -> by (rewrite p52, p53 in *; lia).
      assert (2 ^ 2045 = 2 * 2 ^ 2044) as E2 by (rewrite <- (Z.pow_add_r 2 1) by lia; f_equal; lia). rewrite E2 in *.
      set (P := 2 ^ 2044) in *. set (X := n * 2 ^ 1074) in *. clearbody P X. change (2 ^ 54) with (2 * 2 ^ 53). nia.
    - destruct Hlo as [?|[_ Hlo]]; [lia|]. assert (2 ^ 2046 ≤ 2 ^ E) as Hp by (apply Z.pow_le_mono_r; lia).
      assert (2 ^ 2046 = 4 * 2 ^ 2044) as E2 by (rewrite <- (Z.pow_add_r 2 2) by lia; f_equal; lia). rewrite E2 in Hp.
      set (P := 2 ^ 2044) in *. set (X := n * 2 ^ 1074) in *. assert (0 < P) by reflexivity. clearbody P X. change (2 ^ 54) with (4 * 2 ^ 52).
      assert (d * (2 ^ 52 * (4 * P)) ≤ d * (2 ^ 52 * 2 ^ E)) by nia. nia. }
  assert (2 ^ 2044 = 2 ^ 970 * 2 ^ 1074) as E2 by (rewrite <- Z.pow_add_r by lia; f_equal; lia). rewrite E2 in Hb2.
  pose proof (pow2_pos 1074 ltac:(lia)). set (P := 2 ^ 1074) in *. clearbody P. nia.
Qed.
Lemma nearest_unique n d b b' : nearest_to n d b → nearest_to n d b' → 0 < d → 0 ≤ n → b = b'.
Proof.
  intros [M H] [M' H'] Hd Hn. destruct (decide (b = b')) as [|Hne]; [done|exfalso].
  destruct (H b' M') as [L|[L E]]; [done| |]; destruct (H' b M) as [L'|[L' E']]; try done; try lia.
  (* two even neighbours cannot both be nearest: one is between *)
  unfold magnitude in *.
  assert (∀ x y, 0 ≤ x → y < 0x7FF0000000000000 → x < y → Z.even x = true → Z.even y = true → nearest_to n d x → miss n d x = miss n d y → False) as K.
  { clear -Hd. intros x y Hx Hy Hxy Ex Ey [_ Nx] Heq.
    assert (x + 1 < y) as H1. { destruct (decide (y = x + 1)) as [->|]; [|lia]. rewrite Z.add_1_r, Z.even_succ, <- Z.negb_even, Ex in Ey. done. }
    pose proof (units_succ x ltac:(lia)) as U1. pose proof (units_succ (x + 1) ltac:(lia)) as U2. pose proof (units_mono (x + 1 + 1) y ltac:(lia) ltac:(lia)) as U3.
    unfold miss in *. assert (d * f64_units x < d * f64_units (x + 1)) by nia. assert (d * f64_units (x + 1) < d * f64_units y) by nia.
    destruct (Nx (x + 1)) as [L|[L _]]; [unfold magnitude; lia|lia| |]; lia. }
  destruct (decide (b < b')).
  - exact (K b b' ltac:(lia) ltac:(lia) ltac:(lia) E E' (conj M H) L).
  - exact (K b' b ltac:(lia) ltac:(lia) ltac:(lia) E' E (conj M' H') L').
Qed.
Lemma f64_of_dec_ratio neg m e : f64_of_dec neg m e =
  match f64_of_ratio (numer m e) (denom e) with Some b => Some (if neg : bool then 2 ^ 63 + b else b) | None => None end.
Proof. unfold f64_of_dec, numer, denom. by destruct (0 <=? e). Qed.
Lemma numer_nonneg m e : 0 ≤ m → 0 ≤ numer m e.
Proof. intros H. unfold numer. destruct (Z.leb_spec 0 e) as [He|]; [|done]. pose proof (Z.pow_pos_nonneg 10 e ltac:(lia) He). nia. Qed.
Lemma denom_pos e : 0 < denom e.
Proof. unfold denom. destruct (Z.leb_spec 0 e) as [He|]; [lia|]. apply Z.pow_pos_nonneg; lia. Qed.
Lemma double_for_iff neg m e b : 0 ≤ m → f64_of_dec neg m e = Some b ↔ double_for neg m e b.
Proof.
  intros Hm. rewrite f64_of_dec_ratio. unfold double_for.
  pose proof (numer_nonneg m e Hm) as Hn. pose proof (denom_pos e) as Hd.
  destruct (f64_of_ratio (numer m e) (denom e)) as [c|] eqn:E.
  - apply f64_of_ratio_nearest in E as [N T]; [|done|done]. split.
    + intros [= <-]. exists c. split_and!; [done|done|]. destruct neg; [done|]. by rewrite Z.add_0_l.
    + intros (c' & N' & _ & ->). rewrite (nearest_unique _ _ _ _ N' N Hd Hn). destruct neg; [done|]. by rewrite Z.add_0_l.
  - apply f64_of_ratio_none in E; [|done|done]. split; [done|]. by intros (c' & _ & T & _).
Qed.
Lemma double_for_none neg m e : 0 ≤ m → f64_of_dec neg m e = None ↔ too_big (numer m e) (denom e).
Proof.
  intros Hm. rewrite f64_of_dec_ratio.
  pose proof (numer_nonneg m e Hm) as Hn. pose proof (denom_pos e) as Hd.
  destruct (f64_of_ratio (numer m e) (denom e)) as [c|] eqn:E.
  - apply f64_of_ratio_nearest in E as [N T]; [|done|done]. split; done.
  - apply f64_of_ratio_none in E; done.
Qed.
