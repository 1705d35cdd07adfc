(** * The shortest decimal that reads back: what strconv.FormatFloat(f, _, -1, 64) writes.

    Standard library code that json.Marshal calls for float values (value.go:106-110,
    encoding/json encode.go floatEncoder), modelled by its contract, made executable:
    the fewest digits that read back as the same double, the closest such decimal, and
    of two equally close ones the one with the even last digit. *)
From Verif Require Export Nearest.
From Coq Require Import Lia.
Local Open Scope Z_scope.

(** ** The model *)
(** The number of decimal digits of [k]; 0 for 0.  This and the definitions below: for
    value.go:106-110, simplified as said above. *)
Fixpoint ndig_loop (fuel : nat) (k : Z) : Z :=
  match fuel with
  | O => 0
  | S f => if k <=? 0 then 0 else 1 + ndig_loop f (k / 10)
  end.
Definition ndig (k : Z) : Z := ndig_loop (S (Z.to_nat (Z.log2 k))) k.
(** value.go:106-110, strconv: the [p] with 10^(p-1) <= u * 2^-1074 < 10^p. *)
Definition dec_point (u : Z) : Z :=
  if 2 ^ 1074 <=? u then ndig (u / 2 ^ 1074) else 1 - ndig ((2 ^ 1074 - 1) / u).
(** value.go:106-110, strconv: u * 2^-1074 in units of 10^e, a fraction. *)
Definition scale_n (u e : Z) : Z := if 0 <=? e then u else u * 10 ^ (- e).
Definition scale_d (e : Z) : Z := if 0 <=? e then 2 ^ 1074 * 10 ^ e else 2 ^ 1074.
(** value.go:106-110, strconv: the double of magnitude [b] with [n] digits, if that is enough: of the two
    neighbouring decimals the ones that read back, and of these the closer one. *)
Definition try_digits (b p n : Z) : option (Z * Z) :=
  let e := p - n in
  let num := scale_n (f64_units b) e in
  let den := scale_d e in
  let lo := num / den in
  let hi := lo + 1 in
  let ok m := match f64_of_dec false m e with Some b' => b' =? b | None => false end in
  let out m := if m =? 10 ^ n then (1, p) else (m, e) in
  if ok lo then
    if ok hi then
      if 2 * num <? (lo + hi) * den then Some (out lo)
      else if (lo + hi) * den <? 2 * num then Some (out hi)
      else if Z.even lo then Some (out lo) else Some (out hi)
    else Some (out lo)
  else if ok hi then Some (out hi)
  else None.
(** value.go:106-110, strconv: the first number of digits that is enough. *)
Fixpoint first_digits (fuel : nat) (b p n : Z) : Z * Z :=
  match fuel with
  | O => (0, 0)
  | S f => match try_digits b p n with
           | Some r => r
           | None => first_digits f b p (n + 1)
           end
  end.
(** value.go:106-110, strconv: the digits, as an integer, and the exponent of the last one. *)
Definition shortest (b : Z) : Z * Z :=
  if b =? 0 then (0, 0) else first_digits 17 b (dec_point (f64_units b)) 1.

(** ** Specification *)
(** The distance of m * 10^e from the double of magnitude [b], as the fraction
    [gap m e b / (denom e * 2^1074)]. *)
Definition gap (m e b : Z) : Z := miss (numer m e) (denom e) b.
(** [m * 10^e] is at least as close to [b] as [m' * 10^e']. *)
Definition as_close (b m e m' e' : Z) : Prop := gap m e b * denom e' ≤ gap m' e' b * denom e.
(** The shortest decimal for the double of magnitude [b]. *)
Definition shortest_for (b m e : Z) : Prop :=
  double_for false m e b ∧
  ∀ m' e', 0 < m' → double_for false m' e' b →
    ndig m < ndig m' ∨
    (ndig m = ndig m' ∧ as_close b m e m' e' ∧ (as_close b m' e' m e → (m' = m ∧ e' = e) ∨ (Z.even m = true ∧ Z.even m' = false))).

(** ** Proofs *)
Lemma pow10_pos k : 0 ≤ k → 0 < 10 ^ k. Proof. intros. apply Z.pow_pos_nonneg; lia. Qed.
Lemma ndig_loop_spec fuel : ∀ k, 0 < k → (Z.to_nat (Z.log2 k) < fuel)%nat →
  1 ≤ ndig_loop fuel k ∧ 10 ^ (ndig_loop fuel k - 1) ≤ k < 10 ^ (ndig_loop fuel k).
Proof.
  induction fuel as [|f IH]; intros k Hk Hf; [lia|]. cbn [ndig_loop]. destruct (Z.leb_spec k 0); [lia|].
  pose proof (Z.div_mod k 10 ltac:(lia)) as E. pose proof (Z.mod_pos_bound k 10 ltac:(lia)) as B.
  destruct (decide (k / 10 = 0)) as [E0|E0].
  - rewrite E0. assert (ndig_loop f 0 = 0) as -> by (destruct f; done).
    replace (1 + 0 - 1) with 0 by lia. replace (1 + 0) with 1 by lia. change (10 ^ 0) with 1. change (10 ^ 1) with 10. lia.
  - assert (0 < k / 10) as Hp by (pose proof (Z.div_pos k 10); lia).
    assert (Z.log2 (k / 10) < Z.log2 k) as Hl.
    { pose proof (Z.log2_le_mono (k / 10) (k / 2)) as M.
      assert (k / 10 ≤ k / 2) as Hle by (apply Z.div_le_lower_bound; lia). specialize (M Hle).
      assert (Z.log2 (k / 2) = Z.log2 k - 1) as Hd.
      { change 2 with (2 ^ 1). rewrite <- Z.shiftr_div_pow2 by lia. rewrite Z.log2_shiftr by lia.
        assert (1 ≤ Z.log2 k); [|lia]. pose proof (Z.log2_le_mono 2 k). change (Z.log2 2) with 1 in *. lia. }
      lia. }
    pose proof (Z.log2_nonneg (k / 10)).
    destruct (IH (k / 10) Hp ltac:(lia)) as (H1 & H2 & H3). set (n := ndig_loop f (k / 10)) in *.
    replace (1 + n - 1) with (1 + (n - 1)) by lia. rewrite !Z.pow_add_r by lia. change (10 ^ 1) with 10. lia.
Qed.
Lemma ndig_spec k : 0 < k → 1 ≤ ndig k ∧ 10 ^ (ndig k - 1) ≤ k < 10 ^ ndig k.
Proof. intros H. apply ndig_loop_spec; [done|lia]. Qed.
Lemma ndig_0 : ndig 0 = 0. Proof. done. Qed.
Lemma ndig_unique k n : 10 ^ (n - 1) ≤ k < 10 ^ n → 1 ≤ n → ndig k = n.
Proof.
  intros [H1 H2] Hn. pose proof (pow10_pos (n - 1) ltac:(lia)).
  destruct (ndig_spec k ltac:(lia)) as (G & G1 & G2).
  assert (ndig k - 1 < n) by (apply (Z.pow_lt_mono_r_iff 10); lia).
  assert (n - 1 < ndig k) by (apply (Z.pow_lt_mono_r_iff 10); lia). lia.
Qed.
Lemma ndig_lt k n : 0 ≤ n → 0 ≤ k → ndig k ≤ n ↔ k < 10 ^ n.
Proof.
  intros Hn Hk. destruct (decide (k = 0)) as [->|].
  { rewrite ndig_0. pose proof (pow10_pos n Hn). lia. }
  destruct (ndig_spec k ltac:(lia)) as (G & G1 & G2). split; intros H.
  - pose proof (Z.pow_le_mono_r 10 (ndig k) n ltac:(lia) H). lia.
  - assert (ndig k - 1 < n) by (apply (Z.pow_lt_mono_r_iff 10); lia). lia.
Qed.

(** Everything is compared in multiples of 10^-K * 2^-1074, K large. *)
Definition at_K (K m e : Z) : Z := m * 10 ^ (e + K).
Lemma pow10_split a b : 0 ≤ a → 0 ≤ b → 10 ^ (a + b) = 10 ^ a * 10 ^ b. Proof. intros. by apply Z.pow_add_r. Qed.
Lemma frac_K K m e : 0 ≤ K → - K ≤ e → numer m e * 10 ^ K = at_K K m e * denom e.
Proof.
  intros HK He. unfold numer, denom, at_K. destruct (Z.leb_spec 0 e).
  - rewrite pow10_split by lia. lia.
  - replace K with ((e + K) + - e) at 1 by lia. rewrite pow10_split by lia. lia.
Qed.
Lemma abs_scale c a : 0 < c → Z.abs (c * a) = c * Z.abs a.
Proof. intros. rewrite Z.abs_mul. lia. Qed.
Lemma miss_scale n d n' d' b : 0 < d → 0 < d' → n * d' = n' * d → miss n d b * d' = miss n' d' b * d.
Proof.
  intros Hd Hd' E. unfold miss. rewrite !(Z.mul_comm (Z.abs _)), <-!abs_scale by done. f_equal.
  set (P := 2 ^ 1074). set (u := f64_units b). clearbody P u.
  replace (d' * (n * P - d * u)) with (n * d' * P - d' * d * u) by ring. rewrite E. ring.
Qed.
Lemma nearest_scale n d n' d' b : 0 < d → 0 < d' → n * d' = n' * d → nearest_to n d b → nearest_to n' d' b.
Proof.
  intros Hd Hd' E [M H]. split; [done|]. intros b' M' Hne. specialize (H b' M' Hne).
  pose proof (miss_scale n d n' d' b Hd Hd' E) as S1. pose proof (miss_scale n d n' d' b' Hd Hd' E) as S2.
  set (x := miss n d b) in *. set (y := miss n d b') in *. set (x' := miss n' d' b) in *. set (y' := miss n' d' b') in *.
  clearbody x y x' y'. destruct H as [H|[H He]]; [left; nia|right; split; [nia|done]].
Qed.
Lemma too_big_scale n d n' d' : 0 < d → 0 < d' → n * d' = n' * d → too_big n d → too_big n' d'.
Proof. unfold too_big. intros Hd Hd' E H. set (P := (2 ^ 54 - 1) * 2 ^ 970) in *. clearbody P. nia. Qed.
(** [w / d] reads as [b]. *)
Definition reads (d b w : Z) : Prop := nearest_to w d b ∧ ¬ too_big w d.
Lemma double_for_K K m e b : 0 ≤ K → - K ≤ e →
  double_for false m e b ↔ reads (2 ^ 1074 * 10 ^ K) b (2 ^ 1074 * at_K K m e).
Proof.
  intros HK He. pose proof (frac_K K m e HK He) as E. pose proof (denom_pos e) as Hd.
  pose proof (pow10_pos K HK) as H10. pose proof (pow2_pos 1074 ltac:(lia)) as H2.
  unfold double_for, reads. set (A := 2 ^ 1074) in *. clearbody A.
  assert (0 < A * 10 ^ K) by nia.
  assert (numer m e * (A * 10 ^ K) = A * at_K K m e * denom e) as E1 by (rewrite Z.mul_assoc, (Z.mul_comm _ A), <-!Z.mul_assoc, E; ring).
  split.
  - intros (c & N & T & ->). rewrite Z.add_0_l. split; [exact (nearest_scale _ _ _ _ _ Hd H E1 N)|].
    intros T'. apply T. exact (too_big_scale _ _ _ _ H Hd (eq_sym E1) T').
  - intros [N T]. exists b. split; [exact (nearest_scale _ _ _ _ _ H Hd (eq_sym E1) N)|].
    split; [|by rewrite Z.add_0_l]. intros T'. apply T. exact (too_big_scale _ _ _ _ Hd H E1 T').
Qed.

(** Reading is monotone: what lies between two decimals that read as [b] reads as [b]. *)
Lemma miss_lt w d b b' : 0 < d → f64_units b < f64_units b' →
  (miss w d b < miss w d b' ↔ 2 * (w * 2 ^ 1074) < d * (f64_units b + f64_units b')) ∧
  (miss w d b = miss w d b' ↔ 2 * (w * 2 ^ 1074) = d * (f64_units b + f64_units b')).
Proof.
  intros Hd Hu. unfold miss. set (a := w * 2 ^ 1074). set (u := f64_units b) in *. set (u' := f64_units b') in *. clearbody a u u'.
  assert (d * u < d * u') by nia. rewrite Z.mul_add_distr_l. lia.
Qed.
(** lia and nia with the large constant as a variable. *)
Ltac hide := repeat match goal with x := _ |- _ => clearbody x end; let A := fresh "A" in set (A := 2 ^ 1074) in *; clearbody A.
Ltac hlia := first [solve [hide; lia] | lia].
Ltac hnia := first [solve [hide; nia] | nia].
Lemma units_lt b b' : 0 ≤ b → b < b' → f64_units b < f64_units b'.
Proof. intros Hb H. pose proof (units_succ b Hb). pose proof (units_mono (b + 1) b' ltac:(hlia) ltac:(hlia)). hlia. Qed.
Lemma nearest_iff w d b : 0 < d → magnitude b →
  nearest_to w d b ↔
  (∀ b', magnitude b' → b < b' → 2 * (w * 2 ^ 1074) < d * (f64_units b + f64_units b') ∨
                                (2 * (w * 2 ^ 1074) = d * (f64_units b + f64_units b') ∧ Z.even b = true)) ∧
  (∀ b', magnitude b' → b' < b → d * (f64_units b' + f64_units b) < 2 * (w * 2 ^ 1074) ∨
                                (d * (f64_units b' + f64_units b) = 2 * (w * 2 ^ 1074) ∧ Z.even b = true)).
Proof.
  intros Hd M. unfold nearest_to. split.
  - intros [_ H]. split; intros b' M' Hlt.
    + destruct (miss_lt w d b b' Hd (units_lt b b' ltac:(unfold magnitude in *; hlia) Hlt)) as [E1 E2].
      destruct (H b' M' ltac:(hlia)) as [L|[L Ev]]; [left; tauto|right; tauto].
    + destruct (miss_lt w d b' b Hd (units_lt b' b ltac:(unfold magnitude in *; hlia) Hlt)) as [E1 E2].
      destruct (H b' M' ltac:(hlia)) as [L|[L Ev]].
      * left. destruct (Z.lt_trichotomy (miss w d b') (miss w d b)) as [|[]]; [hlia|hlia|].
        assert (¬ 2 * (w * 2 ^ 1074) < d * (f64_units b' + f64_units b)) by (intros ?%E1; hlia).
        assert (¬ 2 * (w * 2 ^ 1074) = d * (f64_units b' + f64_units b)) by (intros ?%E2; hlia). hlia.
      * right. split; [|done]. symmetry. by apply E2.
  - intros [H1 H2]. split; [done|]. intros b' M' Hne. destruct (decide (b < b')) as [Hlt|].
    + destruct (miss_lt w d b b' Hd (units_lt b b' ltac:(unfold magnitude in *; hlia) Hlt)) as [E1 E2].
      destruct (H1 b' M' Hlt) as [L|[L Ev]]; [left; tauto|right; tauto].
    + assert (b' < b) as Hlt by hlia.
      destruct (miss_lt w d b' b Hd (units_lt b' b ltac:(unfold magnitude in *; hlia) Hlt)) as [E1 E2].
      destruct (H2 b' M' Hlt) as [L|[L Ev]].
      * left. destruct (Z.lt_trichotomy (miss w d b') (miss w d b)) as [L'|[L'|]]; [apply E1 in L'; hlia|apply E2 in L'; hlia|done].
      * right. split; [|done]. symmetry. by apply E2.
Qed.
Lemma reads_between d b w1 w2 w3 : 0 < d → reads d b w1 → reads d b w3 → w1 ≤ w2 ≤ w3 → reads d b w2.
Proof.
  intros Hd [N1 T1] [N3 T3] H. assert (magnitude b) as M by apply N1.
  apply nearest_iff in N1 as [_ L]; [|done|done]. apply nearest_iff in N3 as [U _]; [|done|done]. split.
  - apply nearest_iff; [done|done|]. pose proof (pow2_pos 1074 ltac:(hlia)) as HP. set (P := 2 ^ 1074) in *. clearbody P.
    split; intros b' M' Hlt.
    + destruct (U b' M' Hlt) as [G|[G Ev]]; [left; hnia|].
      destruct (decide (w2 = w3)) as [->|]; [by right|left; hnia].
    + destruct (L b' M' Hlt) as [G|[G Ev]]; [left; hnia|].
      destruct (decide (w2 = w1)) as [->|]; [by right|left; hnia].
  - unfold too_big in *. hlia.
Qed.
(** The double itself. *)
Lemma p2045 : 2 ^ 2045 = 2 * (2 ^ 1074 * 2 ^ 970).
Proof. rewrite <-Z.pow_add_r, <-Z.pow_succ_r by hlia. reflexivity. Qed.
Lemma units_max b : magnitude b → f64_units b ≤ (2 ^ 53 - 1) * 2 ^ 2045.
Proof.
  intros M. unfold magnitude in M. pose proof (units_mono b 0x7FEFFFFFFFFFFFFF ltac:(hlia) ltac:(hlia)) as H.
  replace 0x7FEFFFFFFFFFFFFF with (2045 * 2 ^ 52 + (2 ^ 53 - 1)) in H by reflexivity.
  rewrite units_form in H; [exact H|hlia|rewrite p53; hlia|]. right. rewrite p52, p53. hlia.
Qed.
Lemma reads_self D b : 0 < D → magnitude b → reads (2 ^ 1074 * D) b (f64_units b * D).
Proof.
  intros HD M. pose proof (pow2_pos 1074 ltac:(hlia)) as HP. split.
  - apply nearest_iff; [hnia|done|]. set (P := 2 ^ 1074) in *. clearbody P.
    split; intros b' M' Hlt; left.
    + pose proof (units_lt b b' ltac:(unfold magnitude in *; hlia) Hlt). assert (0 < D * P) by hnia.
      replace (2 * (f64_units b * D * P)) with ((D * P) * (f64_units b + f64_units b)) by ring. hnia.
    + pose proof (units_lt b' b ltac:(unfold magnitude in *; hlia) Hlt). assert (0 < D * P) by hnia.
      replace (2 * (f64_units b * D * P)) with ((D * P) * (f64_units b + f64_units b)) by ring. hnia.
  - unfold too_big. pose proof (units_max b M) as U.
    assert ((2 ^ 53 - 1) * 2 ^ 2045 < 2 ^ 1074 * ((2 ^ 54 - 1) * 2 ^ 970)) as H.
    { rewrite p2045. pose proof (pow2_pos 970 ltac:(hlia)). change (2 ^ 54) with (2 * 2 ^ 53). rewrite p53.
      set (A := 2 ^ 1074) in *. set (B := 2 ^ 970) in *. clearbody A B. hnia. }
    set (X := (2 ^ 54 - 1) * 2 ^ 970) in *. set (Y := (2 ^ 53 - 1) * 2 ^ 2045) in *. set (P := 2 ^ 1074) in *. clearbody X Y P. hnia.
Qed.

Lemma dec_point_K K u : 0 < u → 0 ≤ K → - K ≤ dec_point u - 1 →
  2 ^ 1074 * 10 ^ (dec_point u - 1 + K) ≤ u * 10 ^ K < 2 ^ 1074 * 10 ^ (dec_point u + K).
Proof.
  intros Hu HK. pose proof (pow2_pos 1074 ltac:(hlia)) as HA. unfold dec_point. set (A := 2 ^ 1074) in *. clearbody A.
  pose proof (pow10_pos K HK) as HT.
  destruct (Z.leb_spec A u) as [H|H]; intros Hp.
  - assert (0 < u / A) as Hq by (apply Z.div_str_pos; hlia).
    destruct (ndig_spec _ Hq) as (G & G1 & G2). set (p := ndig (u / A)) in *. clearbody p.
    pose proof (Z.mul_div_le u A HA) as D1. pose proof (Z.mul_succ_div_gt u A HA) as D2.
    set (k := u / A) in *. clearbody k.
    assert (A * 10 ^ (p - 1) ≤ u) as L1 by hnia. assert (u < A * 10 ^ p) as L2 by hnia.
    rewrite (pow10_split (p - 1)), (pow10_split p) by hlia. rewrite !Z.mul_assoc. set (T := 10 ^ K) in *. clearbody T.
    split; [apply Z.mul_le_mono_nonneg_r; hlia|apply Z.mul_lt_mono_pos_r; hlia].
  - assert (0 < (A - 1) / u) as Hq by (apply Z.div_str_pos; hlia).
    destruct (ndig_spec _ Hq) as (G & G1 & G2). set (j := ndig ((A - 1) / u)) in *. clearbody j.
    pose proof (Z.mul_div_le (A - 1) u Hu) as D1. pose proof (Z.mul_succ_div_gt (A - 1) u Hu) as D2.
    set (k := (A - 1) / u) in *. clearbody k.
    assert (u * 10 ^ (j - 1) < A) as L1 by hnia. assert (A ≤ u * 10 ^ j) as L2 by hnia.
    replace (1 - j - 1 + K) with (K - j) by hlia. replace (1 - j + K) with (K - j + 1) by hlia.
    pose proof (pow10_pos (K - j) ltac:(hlia)) as HX.
    split.
    + replace K with (j + (K - j)) at 2 by hlia. rewrite (pow10_split j) by hlia. hnia.
    + replace K with ((j - 1) + (K - j + 1)) at 1 by hlia. rewrite (pow10_split (j - 1)) by hlia.
      pose proof (pow10_pos (K - j + 1) ltac:(hlia)). hnia.
Qed.
Lemma scale_K K u e : 0 ≤ K → - K ≤ e →
  scale_n u e * (2 ^ 1074 * 10 ^ (e + K)) = scale_d e * (u * 10 ^ K) ∧ 0 < scale_d e.
Proof.
  intros HK He. pose proof (pow2_pos 1074 ltac:(hlia)) as HA. unfold scale_n, scale_d. set (A := 2 ^ 1074) in *. clearbody A.
  destruct (Z.leb_spec 0 e).
  - pose proof (pow10_pos e ltac:(hlia)). split; [rewrite pow10_split by hlia; ring|hnia].
  - split; [|hlia]. replace K with (- e + (e + K)) at 2 by hlia. rewrite (pow10_split (- e)) by hlia. ring.
Qed.
(** The neighbours at [n] digits, in those units. *)
Lemma neighbours num den S W : 0 < S → 0 < den → num * S = den * W →
  (num / den) * S ≤ W < (num / den + 1) * S.
Proof.
  intros HS Hd E. pose proof (Z.mul_div_le num den Hd) as D1. pose proof (Z.mul_succ_div_gt num den Hd) as D2.
  set (l := num / den) in *. clearbody l. split.
  - assert (den * (l * S) ≤ den * W) by hnia. hnia.
  - assert (den * W < den * ((l + 1) * S)) by hnia. hnia.
Qed.
Lemma double_compare num den S W l : 0 < S → 0 < den → num * S = den * W →
  (2 * num < l * den ↔ 2 * W < l * S) ∧ (l * den < 2 * num ↔ l * S < 2 * W).
Proof.
  intros HS Hd E. split; split; intros H.
  - assert (den * (2 * W) < den * (l * S)) by hnia. hnia.
  - assert (S * (2 * num) < S * (l * den)) by hnia. hnia.
  - assert (den * (l * S) < den * (2 * W)) by hnia. hnia.
  - assert (S * (l * den) < S * (2 * num)) by hnia. hnia.
Qed.
Lemma pow10_ge1 k : 0 ≤ k → 1 ≤ 10 ^ k. Proof. intros H. pose proof (pow10_pos k H). hlia. Qed.
(** No decimal of at most [n] digits lies between the neighbours. *)
Lemma no_between K W p n lo m e A : 0 < A → 0 ≤ K → 1 ≤ n → - K ≤ p - n → - K ≤ e → 0 ≤ m < 10 ^ n →
  A * 10 ^ (p - 1 + K) ≤ W < A * 10 ^ (p + K) →
  lo * (A * 10 ^ (p - n + K)) ≤ W < (lo + 1) * (A * 10 ^ (p - n + K)) →
  10 ^ (n - 1) ≤ lo < 10 ^ n ∧
  (A * at_K K m e ≤ lo * (A * 10 ^ (p - n + K)) ∨ (lo + 1) * (A * 10 ^ (p - n + K)) ≤ A * at_K K m e).
Proof.
  intros HA HK Hn Hp He Hm Hw Hlo. unfold at_K.
  assert (10 ^ (p - 1 + K) = 10 ^ (n - 1) * 10 ^ (p - n + K)) as E1 by (rewrite <-pow10_split by hlia; f_equal; hlia).
  assert (10 ^ (p + K) = 10 ^ n * 10 ^ (p - n + K)) as E2 by (rewrite <-pow10_split by hlia; f_equal; hlia).
  pose proof (pow10_pos (p - n + K) ltac:(hlia)) as HS.
  rewrite E1, E2 in Hw. set (s := 10 ^ (p - n + K)) in *.
  assert (0 < A * s) as HAs by hnia.
  assert (10 ^ (n - 1) ≤ lo < 10 ^ n) as Hl.
  { split; [assert (10 ^ (n - 1) * (A * s) < (lo + 1) * (A * s)) by hnia|assert (lo * (A * s) < 10 ^ n * (A * s)) by hnia]; hnia. }
  split; [done|]. destruct (decide (p - n ≤ e)) as [Hge|Hlt].
  - replace (e + K) with ((e - (p - n)) + (p - n + K)) by hlia. rewrite pow10_split by hlia. fold s.
    set (t := m * 10 ^ (e - (p - n))). replace (A * (m * (10 ^ (e - (p - n)) * s))) with (t * (A * s)) by (unfold t; ring).
    destruct (decide (t ≤ lo)); [left; hnia|right; hnia].
  - left. assert (m * 10 ^ (e + K) ≤ 10 ^ (n - 1) * s) as H; [|hnia].
    assert (10 ^ (n - 1) * s = 10 ^ n * 10 ^ (p - n + K - 1)) as ->.
    { unfold s. rewrite <-!pow10_split by hlia. f_equal. hlia. }
    assert (10 ^ (e + K) ≤ 10 ^ (p - n + K - 1)) by (apply Z.pow_le_mono_r; hlia).
    pose proof (pow10_pos (e + K) ltac:(hlia)). hnia.
Qed.

(** Seventeen digits are enough. *)
Lemma units_around b : magnitude b → 0 < b → ∃ E q, 0 ≤ E ≤ 2045 ∧ 0 < q < 2 ^ 53 ∧ (E = 0 ∨ 2 ^ 52 ≤ q) ∧ f64_units b = q * 2 ^ E ∧
  f64_units (b + 1) = f64_units b + 2 ^ E ∧
  f64_units b < 10 ^ 16 * (f64_units b - f64_units (b - 1)) ∧ f64_units b - f64_units (b - 1) ≤ 2 ^ E.
Proof.
  intros M Hb. unfold magnitude in M. destruct (magnitude_form b ltac:(hlia)) as (E & q & HE & Hq & Hn & ->).
  assert (0 < q) as Hq0. { destruct Hn as [->|]; [hlia|rewrite p52 in *; hlia]. }
  pose proof (pow2_pos E HE) as HP.
  exists E, q. split; [rewrite p52, p53 in *; destruct Hn; hlia|]. split; [hlia|]. split; [done|].
  rewrite (units_form E q) by hlia. split; [done|]. split.
  { replace (E * 2 ^ 52 + q + 1) with (E * 2 ^ 52 + (q + 1)) by hlia. rewrite units_form by hlia. ring. }
  change (10 ^ 16) with 10000000000000000. rewrite p53 in Hq.
  destruct (decide (E = 0 ∨ 2 ^ 52 < q)) as [Hin|Hout].
  - replace (E * 2 ^ 52 + q - 1) with (E * 2 ^ 52 + (q - 1)) by hlia. rewrite units_form by (rewrite ?p53; hlia). hnia.
  - assert (q = 2 ^ 52) as -> by hlia. assert (1 ≤ E) by hlia.
    replace (E * 2 ^ 52 + 2 ^ 52 - 1) with ((E - 1) * 2 ^ 52 + (2 ^ 53 - 1)) by (rewrite p52, p53; hlia).
    rewrite units_form by (rewrite ?p52, ?p53; hlia).
    assert (2 ^ E = 2 * 2 ^ (E - 1)) as -> by (replace E with (1 + (E - 1)) at 1 by hlia; rewrite Z.pow_add_r by hlia; done).
    pose proof (pow2_pos (E - 1) ltac:(hlia)). rewrite p52, p53. hnia.
Qed.
Lemma close_reads D b v S : 0 < D → magnitude b → 0 < b → 0 < S → 2 * Z.abs (v - f64_units b * D) ≤ S → S * 10 ^ 16 ≤ f64_units b * D →
  reads (2 ^ 1074 * D) b v.
Proof.
  intros HD M Hb HS Hv Hw. destruct (units_around b M Hb) as (E & q & HE & Hq & Hn & Eu & Es & Eg & Eg').
  pose proof (pow2_pos E ltac:(hlia)) as HP. pose proof (pow2_pos 1074 ltac:(hlia)) as HA.
  assert (S < D * (f64_units b - f64_units (b - 1))) as S1.
  { change (10 ^ 16) with 10000000000000000 in *. set (g := f64_units b - f64_units (b - 1)) in *. clearbody g. hnia. }
  assert (S < D * 2 ^ E) as S2 by hnia.
  split.
  - apply nearest_iff; [hnia|done|]. set (A := 2 ^ 1074) in *. clearbody A. unfold magnitude in M.
    assert (0 < A * D) by hnia. split; intros b' M' Hlt; left; unfold magnitude in M'.
    + pose proof (units_mono (b + 1) b' ltac:(hlia) ltac:(hlia)) as H1.
      assert (2 * v < D * (f64_units b + f64_units b')) by hnia. hnia.
    + pose proof (units_mono b' (b - 1) ltac:(hlia) ltac:(hlia)) as H1.
      assert (D * (f64_units b' + f64_units b) < 2 * v) by hnia. hnia.
  - unfold too_big. assert (2 * v < D * (2 * f64_units b + 2 ^ E)) as H1 by hnia. rewrite Eu in H1.
    replace (D * (2 * (q * 2 ^ E) + 2 ^ E)) with (D * (2 ^ E * (2 * q + 1))) in H1 by ring.
    assert (2 ^ E ≤ 2 ^ 2045) as H2 by (apply Z.pow_le_mono_r; hlia).
    pose proof p2045 as H3. rewrite H3 in H2.
    assert (2 * q + 1 ≤ 2 ^ 54 - 1) as H4 by (change (2 ^ 54) with (2 * 2 ^ 53); hlia).
    set (A := 2 ^ 1074) in *. set (B := 2 ^ 970) in *. set (C := 2 ^ 54 - 1) in *. assert (0 < B) as HB by (apply pow2_pos; hlia). clearbody A B C.
    assert (2 ^ E * (2 * q + 1) ≤ 2 * (A * B) * C) as H5.
    { apply Z.mul_le_mono_nonneg; hlia. }
    set (X := 2 ^ E * (2 * q + 1)) in *. set (Y := A * B) in *. clearbody X.
    replace (A * D * (C * B)) with (D * (Y * C)) by (unfold Y; ring). clearbody Y.
    assert (D * X ≤ D * (2 * Y * C)) as H6 by (apply Z.mul_le_mono_nonneg_l; hlia).
    replace (D * (2 * Y * C)) with (2 * (D * (Y * C))) in H6 by ring. hlia.
Qed.

(** ** What one round of the search finds *)
Definition picked (K b p n lo v : Z) : Prop :=
  let S := 2 ^ 1074 * 10 ^ (p - n + K) in let W := f64_units b * 10 ^ K in
  double_for false v (p - n) b ∧
  (v = lo ∧ (double_for false (lo + 1) (p - n) b → 2 * W ≤ (2 * lo + 1) * S ∧ (2 * W = (2 * lo + 1) * S → Z.even lo = true)) ∨
   v = lo + 1 ∧ (double_for false lo (p - n) b → (2 * lo + 1) * S ≤ 2 * W ∧ (2 * W = (2 * lo + 1) * S → Z.even lo = false))).
Lemma try_cases K b p n : 0 ≤ K → - K ≤ p - n → 0 < f64_units b →
  let S := 2 ^ 1074 * 10 ^ (p - n + K) in let W := f64_units b * 10 ^ K in
  ∃ lo, lo * S ≤ W < (lo + 1) * S ∧ 0 ≤ lo ∧
    match try_digits b p n with
    | None => ¬ double_for false lo (p - n) b ∧ ¬ double_for false (lo + 1) (p - n) b
    | Some r => ∃ v, picked K b p n lo v ∧ r = (if v =? 10 ^ n then (1, p) else (v, p - n))
    end.
Proof.
  intros HK He Hu S W. destruct (scale_K K (f64_units b) (p - n) HK He) as [E Hden]. fold S W in E.
  assert (0 < S) as HS. { pose proof (pow10_pos (p - n + K) ltac:(hlia)). pose proof (pow2_pos 1074 ltac:(hlia)). unfold S. hnia. }
  assert (0 < W) as HW. { pose proof (pow10_pos K HK). unfold W. hnia. }
  unfold try_digits. set (num := scale_n (f64_units b) (p - n)) in *. set (den := scale_d (p - n)) in *.
  pose proof (neighbours num den S W HS Hden E) as Hlo. set (lo := num / den) in *.
  pose proof (double_compare num den S W (lo + (lo + 1)) HS Hden E) as [C1 C2].
  assert (0 ≤ lo) as Hl0 by hnia.
  exists lo. split; [done|]. split; [done|].
  assert (∀ m, 0 ≤ m → (match f64_of_dec false m (p - n) with Some b' => b' =? b | None => false end) = true ↔ double_for false m (p - n) b) as Hok.
  { intros m Hm. rewrite <-double_for_iff by done. destruct (f64_of_dec false m (p - n)) as [b'|]; [|done].
    rewrite Z.eqb_eq. split; congruence. }
  pose proof (Hok lo Hl0) as H1. pose proof (Hok (lo + 1) ltac:(hlia)) as H2.
  unfold picked. cbv zeta. fold S W. clearbody num den lo S W. clear Hok.
  replace ((lo + (lo + 1)) * S) with ((2 * lo + 1) * S) in C1, C2 by ring.
  destruct (match f64_of_dec false lo (p - n) with Some b' => b' =? b | None => false end);
    [destruct (match f64_of_dec false (lo + 1) (p - n) with Some b' => b' =? b | None => false end)|
     destruct (match f64_of_dec false (lo + 1) (p - n) with Some b' => b' =? b | None => false end)].
  - destruct (Z.ltb_spec (2 * num) ((lo + (lo + 1)) * den)) as [G|G].
    { exists lo. split; [|done]. split; [by apply H1|]. left. split; [done|]. intros _. apply C1 in G. hlia. }
    destruct (Z.ltb_spec ((lo + (lo + 1)) * den) (2 * num)) as [G'|G'].
    { exists (lo + 1). split; [|done]. split; [by apply H2|]. right. split; [done|]. intros _. apply C2 in G'. hlia. }
    assert (2 * W = (2 * lo + 1) * S) as Eq by hlia.
    destruct (Z.even lo) eqn:Ev.
    + exists lo. split; [|done]. split; [by apply H1|]. left. split; [done|]. intros _. split; [hlia|done].
    + exists (lo + 1). split; [|done]. split; [by apply H2|]. right. split; [done|]. intros _. split; [hlia|done].
  - exists lo. split; [|done]. split; [by apply H1|]. left. split; [done|]. intros Hd. apply H2 in Hd. done.
  - exists (lo + 1). split; [|done]. split; [by apply H2|]. right. split; [done|]. intros Hd. apply H1 in Hd. done.
  - split; [intros Hd; by apply H1 in Hd|intros Hd; by apply H2 in Hd].
Qed.
Lemma first_digits_spec b p fuel : ∀ n,
  (∃ k, n ≤ k < n + Z.of_nat fuel ∧ try_digits b p k ≠ None) →
  ∃ k, n ≤ k ∧ try_digits b p k = Some (first_digits fuel b p n) ∧ ∀ k', n ≤ k' < k → try_digits b p k' = None.
Proof.
  induction fuel as [|f IH]; intros n (k & Hk & Ht); [hlia|]. cbn [first_digits].
  destruct (try_digits b p n) as [r|] eqn:En.
  - exists n. split; [hlia|]. split; [done|hlia].
  - destruct (IH (n + 1)) as (k1 & Hk1 & H1 & H2).
    + exists k. split; [|done]. assert (k ≠ n) by congruence. hlia.
    + exists k1. split; [hlia|]. split; [done|]. intros k' Hk'. destruct (decide (k' = n)) as [->|]; [done|]. apply H2. hlia.
Qed.
Lemma units_pos b : 0 < b → 0 < f64_units b.
Proof. intros H. pose proof (units_lt 0 b ltac:(hlia) H) as L. by change (f64_units 0) with 0 in L. Qed.
Lemma try_17 b : magnitude b → 0 < b → try_digits b (dec_point (f64_units b)) 17 ≠ None.
Proof.
  intros M Hb Hnone. pose proof (units_pos b Hb) as Hu. set (p := dec_point (f64_units b)) in *.
  set (K := Z.abs p + 17). assert (0 ≤ K) as HK by (unfold K; hlia). assert (- K ≤ p - 17) as Hp by (unfold K; hlia).
  destruct (try_cases K b p 17 HK Hp Hu) as (lo & Hlo & Hl0 & H). rewrite Hnone in H. destruct H as [H1 H2].
  destruct (dec_point_K K (f64_units b) Hu HK ltac:(fold p; hlia)) as [P1 P2]. fold p in P1, P2.
  rewrite (double_for_K K _ _ b HK Hp) in H1. rewrite (double_for_K K _ _ b HK Hp) in H2. unfold at_K in H1, H2.
  pose proof (pow10_pos (p - 17 + K) ltac:(hlia)) as HS. pose proof (pow2_pos 1074 ltac:(hlia)) as HA. pose proof (pow10_pos K HK) as HD.
  assert (10 ^ (p - 1 + K) = 10 ^ 16 * 10 ^ (p - 17 + K)) as E1 by (rewrite <-pow10_split by hlia; f_equal; hlia).
  rewrite E1 in P1. set (W := f64_units b * 10 ^ K) in *. set (s := 10 ^ (p - 17 + K)) in *.
  set (S := 2 ^ 1074 * s) in *. assert (0 < S) as HS' by (unfold S; hnia).
  assert (S * 10 ^ 16 ≤ W) as HSW by (unfold S; hlia).
  destruct (decide (2 * W ≤ (2 * lo + 1) * S)) as [Hd|Hd].
  - apply H1. replace (2 ^ 1074 * (lo * s)) with (lo * S) by (unfold S; ring).
    apply (close_reads (10 ^ K) b (lo * S) S HD M Hb HS'); [|exact HSW]. fold W. hlia.
  - apply H2. replace (2 ^ 1074 * ((lo + 1) * s)) with ((lo + 1) * S) by (unfold S; ring).
    apply (close_reads (10 ^ K) b ((lo + 1) * S) S HD M Hb HS'); [|exact HSW]. fold W. hlia.
Qed.

(** ** The result is the shortest decimal *)
Lemma as_close_K K b m e m' e' : 0 ≤ K → - K ≤ e → - K ≤ e' →
  as_close b m e m' e' ↔
  Z.abs (2 ^ 1074 * at_K K m e - f64_units b * 10 ^ K) ≤ Z.abs (2 ^ 1074 * at_K K m' e' - f64_units b * 10 ^ K).
Proof.
  intros HK He He'. pose proof (pow10_pos K HK) as HD. pose proof (denom_pos e) as Hd. pose proof (denom_pos e') as Hd'.
  assert (∀ m e, - K ≤ e → gap m e b * 10 ^ K = denom e * Z.abs (2 ^ 1074 * at_K K m e - f64_units b * 10 ^ K)) as H.
  { clear -HK HD. intros m e He. pose proof (frac_K K m e HK He) as E. pose proof (denom_pos e) as Hd.
    unfold gap, miss. rewrite (Z.mul_comm (Z.abs _)), <-!abs_scale by done. f_equal.
    set (A := 2 ^ 1074). set (T := 10 ^ K) in *. clearbody A T.
    replace (T * (numer m e * A - denom e * f64_units b)) with ((numer m e * T) * A - T * denom e * f64_units b) by ring.
    rewrite E. ring. }
  unfold as_close. pose proof (H m e He) as G. pose proof (H m' e' He') as G'.
  set (x := Z.abs (2 ^ 1074 * at_K K m e - f64_units b * 10 ^ K)) in *.
  set (y := Z.abs (2 ^ 1074 * at_K K m' e' - f64_units b * 10 ^ K)) in *.
  set (g := gap m e b) in *. set (g' := gap m' e' b) in *. set (T := 10 ^ K) in *. set (d := denom e) in *. set (d' := denom e') in *.
  clearbody x y g g' T d d'. assert (0 < d * d') by hnia.
  assert (T * (g * d') = (d * d') * x) as E1 by (transitivity (d' * (g * T)); [ring|rewrite G; ring]).
  assert (T * (g' * d) = (d * d') * y) as E2 by (transitivity (d * (g' * T)); [ring|rewrite G'; ring]).
  split; intros L.
  - assert (d * d' * x ≤ d * d' * y) by (rewrite <-E1, <-E2; apply Z.mul_le_mono_nonneg_l; hlia). hnia.
  - assert (T * (g * d') ≤ T * (g' * d)) by (rewrite E1, E2; apply Z.mul_le_mono_nonneg_l; hlia). hnia.
Qed.
Lemma same_value K m e m' e' : 0 ≤ K → - K ≤ e → - K ≤ e' → 0 < m → 0 < m' → ndig m = ndig m' →
  at_K K m e = at_K K m' e' → m' = m ∧ e' = e.
Proof.
  intros HK. revert m e m' e'.
  assert (∀ m e m' e', - K ≤ e → e ≤ e' → 0 < m → 0 < m' → ndig m = ndig m' → at_K K m e = at_K K m' e' → m' = m ∧ e' = e) as H.
  { intros m e m' e' He Hle Hm Hm' Hn E. unfold at_K in E.
    replace (e' + K) with ((e' - e) + (e + K)) in E by hlia. rewrite (pow10_split (e' - e)) in E by hlia.
    pose proof (pow10_pos (e + K) ltac:(hlia)) as HT. assert (m = m' * 10 ^ (e' - e)) as E1 by hnia.
    destruct (decide (e' = e)) as [->|].
    - rewrite Z.sub_diag in E1. change (10 ^ 0) with 1 in E1. hlia.
    - exfalso. assert (10 ≤ 10 ^ (e' - e)) as H10 by (change 10 with (10 ^ 1) at 1; apply Z.pow_le_mono_r; hlia).
      destruct (ndig_spec m Hm) as (_ & _ & G2). destruct (ndig_spec m' Hm') as (G & G1 & _).
      assert (10 ^ ndig m' = 10 * 10 ^ (ndig m' - 1)) as Ep by (change 10 with (10 ^ 1) at 2; rewrite <-pow10_split by hlia; f_equal; hlia).
      rewrite Hn, Ep in G2. hnia. }
  intros m e m' e' He He' Hm Hm' Hn E. destruct (decide (e ≤ e')).
  - by apply H.
  - destruct (H m' e' m e) as [-> ->]; try done; hlia.
Qed.
Lemma zero_not_read e b : 0 < b → ¬ double_for false 0 e b.
Proof.
  intros Hb (c & [M N] & _ & Ec). rewrite Z.add_0_l in Ec. subst c. pose proof (units_pos b Hb) as Hu. pose proof (denom_pos e) as Hd.
  assert (numer 0 e = 0) as E by (unfold numer; by destruct (0 <=? e)). rewrite E in N.
  assert (miss 0 (denom e) 0 = 0) as E0 by (unfold miss; change (f64_units 0) with 0; rewrite Z.mul_0_l, Z.mul_0_r; done).
  assert (0 < miss 0 (denom e) b) by (unfold miss; rewrite Z.mul_0_l; hnia).
  destruct (N 0) as [L|[L _]]; [unfold magnitude in *; hlia|hlia|hlia|hlia].
Qed.
Lemma even_succ' z : Z.even z = false → Z.even (z + 1) = true.
Proof. intros H. rewrite Z.add_1_r, Z.even_succ, <-Z.negb_even, H. done. Qed.
Lemma pow16_mod5 n : 16 ^ Z.of_nat n mod 5 = 1.
Proof.
  induction n as [|n IH]; [done|]. rewrite Nat2Z.inj_succ, Z.pow_succ_r, Z.mul_mod, IH by hlia. reflexivity.
Qed.
Lemma p1074 : 2 ^ 1074 = 4 * 16 ^ Z.of_nat 268.
Proof. change 16 with (2 ^ 4). rewrite <-Z.pow_mul_r by hlia. change 4 with (2 ^ 2) at 1. rewrite <-Z.pow_add_r by hlia. reflexivity. Qed.
(** Between 9 * 10^k and 10 * 10^k there is never a tie. *)
Lemma no_tie_at_nine K b p : magnitude b → 0 < b → 0 ≤ K → - K ≤ p - 1 → double_for false 9 (p - 1) b →
  2 * (f64_units b * 10 ^ K) ≠ 19 * (2 ^ 1074 * 10 ^ (p - 1 + K)).
Proof.
  intros M Hb HK Hp H9 E. pose proof (pow10_pos K HK) as HD. pose proof (pow10_pos (p - 1 + K) ltac:(hlia)) as HS.
  pose proof (pow2_pos 1074 ltac:(hlia)) as HA.
  rewrite (double_for_K K _ _ b HK Hp) in H9. unfold at_K in H9. destruct H9 as [N _].
  apply nearest_iff in N as [_ L]; [|hnia|done].
  destruct (units_around b M Hb) as (E2 & q & HE & Hq & Hn & Eu & _ & _ & Eg').
  destruct (decide (1 ≤ p)) as [Hp1|Hp1].
  - rewrite pow10_split in E by hlia.
    assert (2 * f64_units b = 19 * (2 ^ 1074 * 10 ^ (p - 1))) as E'.
    { pose proof (pow10_pos (p - 1) ltac:(hlia)). set (A := 2 ^ 1074) in *. clearbody A. hnia. }
    pose proof (pow10_pos (p - 1) ltac:(hlia)) as H10.
    assert (2 ^ 52 ≤ q) as Hq52.
    { destruct Hn as [->|]; [|done]. exfalso. rewrite Z.pow_0_r, Z.mul_1_r in Eu.
      assert (2 ^ 54 < 2 ^ 1074) as B by (apply Z.pow_lt_mono_r; hlia).
      change (2 ^ 54) with (2 * 2 ^ 53) in B. set (A := 2 ^ 1074) in *. clearbody A. hnia. }
    unfold magnitude in M. destruct (L (b - 1)) as [L1|[L1 _]]; [unfold magnitude; hlia|hlia| |];
    rewrite pow10_split in L1 by hlia; set (A := 2 ^ 1074) in *;
    pose proof (pow2_pos E2 ltac:(hlia)) as H2; rewrite p52 in Hq52;
    set (x := 10 ^ (p - 1)) in *; set (T := 10 ^ K) in *; set (u := f64_units b) in *; set (u' := f64_units (b - 1)) in *;
    set (g := 2 ^ E2) in *; clearbody A x T u u' g.
    all: replace (2 * (A * (9 * (x * T)) * A)) with (A * T * (18 * (A * x))) in L1 by ring; assert (0 < A * T) as HAT by hnia;
      set (Y := A * x) in *; set (AT := A * T) in *; clearbody Y AT.
    all: assert (4503599627370496 * g ≤ u) as Hu52 by (rewrite Eu; apply Z.mul_le_mono_nonneg_r; [lia|exact Hq52]);
      clear - L1 HAT H2 Eg' E' Hu52.
    + apply (Z.mul_lt_mono_pos_l AT _ _ HAT) in L1. lia.
    + apply (Z.mul_reg_l _ _ AT) in L1; lia.
  - assert (2 * f64_units b * 10 ^ (1 - p) = 19 * 2 ^ 1074) as E'.
    { replace K with ((1 - p) + (p - 1 + K)) in E at 1 by hlia. rewrite (pow10_split (1 - p)) in E by hlia.
      set (A := 2 ^ 1074) in *. clearbody A. hnia. }
    assert (10 ^ (1 - p) = 10 * 10 ^ (- p)) as E10 by (change 10 with (10 ^ 1) at 2; rewrite <-pow10_split by hlia; f_equal; hlia).
    rewrite E10 in E'. assert ((19 * 2 ^ 1074) mod 5 = 0) as Hm.
    { rewrite <-E'. replace (2 * f64_units b * (10 * 10 ^ (- p))) with ((4 * f64_units b * 10 ^ (- p)) * 5) by ring. apply Z.mod_mul. hlia. }
    rewrite p1074, Z.mul_assoc, Z.mul_mod, pow16_mod5 in Hm by hlia. discriminate Hm.
Qed.

Lemma shortest_pos b : magnitude b → 0 < b → 0 < (shortest b).1 ∧ shortest_for b (shortest b).1 (shortest b).2.
Proof.
  intros M Hb. pose proof (units_pos b Hb) as Hu. unfold shortest. destruct (Z.eqb_spec b 0) as [|_]; [hlia|].
  set (p := dec_point (f64_units b)).
  destruct (first_digits_spec b p 17 1) as (n & Hn & Ht & Hmin).
  { exists 17. split; [hlia|]. by apply try_17. }
  set (r := first_digits 17 b p 1) in *. clearbody r.
  (* the round that succeeded *)
  assert (∀ K e', 0 ≤ K → - K ≤ p - n → - K ≤ e' →
    ∃ lo v, lo * (2 ^ 1074 * 10 ^ (p - n + K)) ≤ f64_units b * 10 ^ K < (lo + 1) * (2 ^ 1074 * 10 ^ (p - n + K)) ∧
      10 ^ (n - 1) ≤ lo < 10 ^ n ∧ picked K b p n lo v ∧ r = (if v =? 10 ^ n then (1, p) else (v, p - n)) ∧
      ∀ m', 0 ≤ m' < 10 ^ n → 2 ^ 1074 * at_K K m' e' ≤ lo * (2 ^ 1074 * 10 ^ (p - n + K)) ∨
                              (lo + 1) * (2 ^ 1074 * 10 ^ (p - n + K)) ≤ 2 ^ 1074 * at_K K m' e') as Round.
  { intros K e' HK Hp He'. destruct (try_cases K b p n HK Hp Hu) as (lo & Hlo & Hl0 & H). rewrite Ht in H. destruct H as (v & Hv & Hr).
    pose proof (dec_point_K K (f64_units b) Hu HK ltac:(fold p; hlia)) as HP. fold p in HP.
    assert (0 < 2 ^ 1074) as HA by (apply pow2_pos; hlia).
    exists lo, v. split; [exact Hlo|].
    split; [exact (proj1 (no_between K _ p n lo 0 e' _ HA HK Hn Hp He' ltac:(split; [hlia|apply pow10_pos; hlia]) HP Hlo))|].
    split; [exact Hv|]. split; [exact Hr|]. intros m' Hm'.
    exact (proj2 (no_between K _ p n lo m' e' _ HA HK Hn Hp He' Hm' HP Hlo)). }
  (* fewer digits do not do *)
  assert (∀ m' e', 0 ≤ m' → double_for false m' e' b → n ≤ ndig m') as Hfew.
  { intros m' e' Hm' Hd. destruct (decide (m' = 0)) as [->|Hm0]; [by destruct (zero_not_read e' b Hb)|].
    destruct (ndig_spec m' ltac:(hlia)) as (G & G1 & G2). destruct (decide (n ≤ ndig m')) as [|Hlt]; [done|exfalso].
    set (k := ndig m') in *. set (K := Z.abs (p - k) + Z.abs e').
    assert (0 ≤ K) as HK by (unfold K; hlia). assert (- K ≤ p - k) as Hp by (unfold K; hlia). assert (- K ≤ e') as He' by (unfold K; hlia).
    destruct (try_cases K b p k HK Hp Hu) as (lo & Hlo & Hl0 & H). rewrite (Hmin k) in H by hlia. destruct H as [H1 H2].
    pose proof (dec_point_K K (f64_units b) Hu HK) as HP. fold p in HP.
    clearbody k. clearbody K.
    destruct (decide (- K ≤ p - 1)) as [Hp1|]; [|hlia]. specialize (HP Hp1).
    assert (0 < 2 ^ 1074) as HA by (apply pow2_pos; hlia). pose proof (pow10_pos K HK) as HD.
    pose proof (proj2 (no_between K _ p k lo m' e' _ HA HK G Hp He' ltac:(hlia) HP Hlo)) as Hbw.
    pose proof (reads_self (10 ^ K) b HD M) as Hself. assert (0 < 2 ^ 1074 * 10 ^ K) as HAD by hnia.
    rewrite (double_for_K K _ _ b HK He') in Hd.
    destruct Hbw as [Hb1|Hb1].
    - apply H1. rewrite (double_for_K K _ _ b HK Hp). unfold at_K at 1.
      eapply (reads_between _ b _ _ _ HAD Hd Hself). hlia.
    - apply H2. rewrite (double_for_K K _ _ b HK Hp). unfold at_K at 1.
      eapply (reads_between _ b _ _ _ HAD Hself Hd). hlia. }
  destruct r as [m e]. cbn [fst snd].
  assert (∀ K, 0 ≤ K → - K ≤ p - n → - K ≤ p → ∀ v, (m, e) = (if v =? 10 ^ n then (1, p) else (v, p - n)) → at_K K m e = at_K K v (p - n)) as Hval.
  { intros K HK Hp Hp0 v. destruct (Z.eqb_spec v (10 ^ n)) as [->|]; intros [= -> ->]; [|done].
    unfold at_K. rewrite <-pow10_split by hlia. rewrite Z.mul_1_l. f_equal. hlia. }
  (* it reads back *)
  assert (0 < m ∧ ndig m ≤ n ∧ double_for false m e b) as (Hm0 & Hmn & Hdm).
  { set (K := Z.abs p + n). assert (0 ≤ K) as HK by (unfold K; hlia). assert (- K ≤ p - n) as Hp by (unfold K; hlia). assert (- K ≤ p) as Hp0 by (unfold K; hlia).
    destruct (Round K (p - n) HK Hp Hp) as (lo & v & Hlo & Hlr & [Hv1 Hv2] & Hr & _).
    pose proof (Hval K HK Hp Hp0 v Hr) as Ev. pose proof (pow10_pos (n - 1) ltac:(hlia)).
    assert (lo ≤ v ≤ lo + 1) as Hv by hlia. assert (- K ≤ e) as HKe.
    { destruct (v =? 10 ^ n); injection Hr; intros; subst; hlia. }
    split_and!.
    - destruct (v =? 10 ^ n); injection Hr; intros; subst; hlia.
    - destruct (Z.eqb_spec v (10 ^ n)); injection Hr; intros; subst; [change (ndig 1) with 1; hlia|]. apply ndig_lt; hlia.
    - rewrite (double_for_K K _ _ b HK Hp) in Hv1. rewrite (double_for_K K _ _ b HK HKe), Ev. exact Hv1. }
  split; [done|]. split; [done|]. intros m' e' Hm0' Hd'.
  pose proof (Hfew m' e' ltac:(hlia) Hd') as Hn'. pose proof (Hfew m e ltac:(hlia) Hdm) as Hnm.
  destruct (decide (ndig m < ndig m')) as [|Hge]; [by left|right]. assert (ndig m = n ∧ ndig m' = n) as [En En'] by hlia.
  split; [hlia|].
  assert (m' < 10 ^ n) as Hm'n by (apply ndig_lt; hlia).
  set (K := Z.abs p + n + Z.abs e').
  assert (0 ≤ K) as HK by (unfold K; hlia). assert (- K ≤ p - n) as Hp by (unfold K; hlia).
  assert (- K ≤ p) as Hp0 by (unfold K; hlia). assert (- K ≤ e') as He' by (unfold K; hlia).
  destruct (Round K e' HK Hp He') as (lo & v & Hlo & Hlr & [Hv1 Hv2] & Hr & Hbw).
  pose proof (Hval K HK Hp Hp0 v Hr) as Ev. specialize (Hbw m' ltac:(hlia)).
  assert (- K ≤ e) as HKe. { destruct (v =? 10 ^ n); injection Hr; intros; subst; hlia. }
  rewrite !(as_close_K K) by done. rewrite Ev.
  pose proof (pow10_pos K HK) as HD. assert (0 < 2 ^ 1074) as HA by (apply pow2_pos; hlia). assert (0 < 2 ^ 1074 * 10 ^ K) as HAD by hnia.
  pose proof (reads_self (10 ^ K) b HD M) as Hself.
  pose proof Hd' as Hd2. rewrite (double_for_K K _ _ b HK He') in Hd2.
  replace (2 ^ 1074 * at_K K v (p - n)) with (v * (2 ^ 1074 * 10 ^ (p - n + K))) by (unfold at_K; ring).
  (* if the other lies above, so does hi, and it reads back; if below, lo does *)
  assert ((lo + 1) * (2 ^ 1074 * 10 ^ (p - n + K)) ≤ 2 ^ 1074 * at_K K m' e' → double_for false (lo + 1) (p - n) b) as Rhi.
  { intros H. rewrite (double_for_K K _ _ b HK Hp). unfold at_K at 1. eapply (reads_between _ b _ _ _ HAD Hself Hd2). hlia. }
  assert (2 ^ 1074 * at_K K m' e' ≤ lo * (2 ^ 1074 * 10 ^ (p - n + K)) → double_for false lo (p - n) b) as Rlo.
  { intros H. rewrite (double_for_K K _ _ b HK Hp). unfold at_K at 1. eapply (reads_between _ b _ _ _ HAD Hd2 Hself). hlia. }
  assert (v * (2 ^ 1074 * 10 ^ (p - n + K)) = 2 ^ 1074 * at_K K m' e' → m' = m ∧ e' = e) as Hsame.
  { intros H. apply (same_value K m e m' e'); try done; [hlia|]. rewrite Ev.
    replace (v * (2 ^ 1074 * 10 ^ (p - n + K))) with (2 ^ 1074 * at_K K v (p - n)) in H by (unfold at_K; ring).
    set (A := 2 ^ 1074) in *. clearbody A. hnia. }
  pose proof (λ H9, no_tie_at_nine K b p M Hb HK ltac:(hlia) H9) as Nine.
  set (S := 2 ^ 1074 * 10 ^ (p - n + K)) in *. set (W := f64_units b * 10 ^ K) in *. set (w' := 2 ^ 1074 * at_K K m' e') in *.
  destruct Hv2 as [[-> Hc]|[-> Hc]]; destruct Hbw as [Hb1|Hb1].
  - split; [hlia|]. intros Hrev. left. apply Hsame. hlia.
  - pose proof (Rhi Hb1) as Rh. specialize (Hc Rh) as [C1 C2]. split; [hlia|]. intros Hrev. right.
    assert (2 * W = (2 * lo + 1) * S) as Htie by hlia. specialize (C2 Htie).
    destruct (Z.eqb_spec lo (10 ^ n)); [hlia|]. injection Hr as -> ->. split; [done|].
    assert (w' = (lo + 1) * S) as Ew by hlia.
    assert (at_K K (lo + 1) (p - n) = at_K K m' e') as Eat.
    { unfold w', S in Ew. unfold at_K in *. set (A := 2 ^ 1074) in *. clearbody A. hnia. }
    destruct (decide (lo + 1 = 10 ^ n)) as [E10|].
    + assert (at_K K 1 p = at_K K m' e') as Eat1.
      { rewrite <-Eat, E10. unfold at_K. rewrite <-pow10_split by hlia. rewrite Z.mul_1_l. f_equal. hlia. }
      assert (n ≤ ndig 1) as H1.
      { apply (Hfew 1 p); [hlia|]. rewrite (double_for_K K _ _ b HK Hp0), Eat1. exact Hd2. }
      change (ndig 1) with 1 in H1. destruct (same_value K 1 p m' e') as [-> _]; try done; change (ndig 1) with 1; hlia.
    + destruct (same_value K (lo + 1) (p - n) m' e') as [-> _]; try done; [hlia| |].
      * rewrite En'. apply ndig_unique; hlia.
      * rewrite Z.add_1_r, Z.even_succ, <-Z.negb_even, C2. done.
  - pose proof (Rlo Hb1) as Rl. specialize (Hc Rl) as [C1 C2]. split; [hlia|]. intros Hrev. right.
    assert (2 * W = (2 * lo + 1) * S) as Htie by hlia. specialize (C2 Htie).
    destruct (Z.eqb_spec (lo + 1) (10 ^ n)) as [E10|].
    + exfalso. injection Hr as -> ->. change (ndig 1) with 1 in En. rewrite <-En in *. change (10 ^ 1) with 10 in E10.
      assert (lo = 9) as -> by hlia. apply (Nine Rl). rewrite Htie. unfold S. by rewrite <-En.
    + injection Hr as -> ->. split; [by apply even_succ'|].
      assert (w' = lo * S) as Ew by hlia.
      assert (at_K K lo (p - n) = at_K K m' e') as Eat.
      { unfold w', S in Ew. unfold at_K in *. set (A := 2 ^ 1074) in *. clearbody A. hnia. }
      destruct (same_value K lo (p - n) m' e') as [-> _]; try done; [pose proof (pow10_pos (n - 1)); hlia|].
      rewrite En'. apply ndig_unique; hlia.
  - split; [hlia|]. intros Hrev. left. apply Hsame. hlia.
Qed.
Lemma shortest_ok b : magnitude b → 0 ≤ (shortest b).1 ∧ shortest_for b (shortest b).1 (shortest b).2.
Proof.
  intros M. destruct (decide (b = 0)) as [->|].
  - change (shortest 0) with (0, 0). cbn [fst snd]. split; [hlia|]. split.
    + apply double_for_iff; [hlia|]. vm_compute. reflexivity.
    + intros m' e' Hm' _. left. rewrite ndig_0. destruct (ndig_spec m' Hm') as (G & _). hlia.
  - unfold magnitude in M. destruct (shortest_pos b) as [H1 H2]; [done|hlia|]. split; [hlia|done].
Qed.
(** There is only one. *)
Lemma shortest_unique b m e m' e' : 0 < b → 0 ≤ m → 0 ≤ m' → shortest_for b m e → shortest_for b m' e' → m' = m ∧ e' = e.
Proof.
  intros Hb Hm Hm' [D H] [D' H'].
  assert (m ≠ 0) by (intros ->; by destruct (zero_not_read e b Hb)). assert (m' ≠ 0) by (intros ->; by destruct (zero_not_read e' b Hb)).
  destruct (H m' e' ltac:(hlia) D') as [L|(L & C & T)]; destruct (H' m e ltac:(hlia) D) as [L'|(L' & C' & T')]; try hlia.
  destruct (T C') as [|[E1 E2]]; [done|]. destruct (T' C) as [[-> ->]|[E1' E2']]; [done|congruence].
Qed.
