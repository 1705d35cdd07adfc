(** * How json.Marshal writes a double: value.go:106-110 calls encoding/json, whose
    floatEncoder calls strconv.AppendFloat(b, f, fmt, -1, 64).

    The digits are those of Shortest.v; here is their layout, function by function. *)
From Verif Require Export Shortest JsonMeaning.
From Coq Require Import Lia.
Local Open Scope Z_scope.

(** ** The model *)
(** value.go:106-110, encode.go floatEncoder: the bits of the constants 1e-6 and 1e21. *)
Definition bits_1e_6 : Z := 0x3EB0C6F7A0B5ED8D.
Definition bits_1e21 : Z := 0x444B1AE4D6E2EF50.
(** value.go:106-110, strconv decimalSlice: digits and the position of the decimal point. *)
Definition decimal_slice (b : Z) : list ascii * Z :=
  if b =? 0 then ([], 0)
  else let '(m, e) := shortest b in (digits m, Z.of_nat (length (digits m)) + e).
(** value.go:106-110, strconv ftoa.go fmtF with prec = max(nd - dp, 0), without the sign. *)
Definition fmtF (ds : list ascii) (dp : Z) : list ascii :=
  let nd := Z.of_nat (length ds) in
  let prec := Z.max (nd - dp) 0 in
  (if 0 <? dp then firstn (Z.to_nat dp) ds ++ repeat "0"%char (Z.to_nat (dp - nd)) else ["0"%char]) ++
  (if 0 <? prec
   then "."%char :: map (λ i, let j := dp + Z.of_nat i in if 0 <=? j then nth (Z.to_nat j) ds "0"%char else "0"%char)
                        (seq 0 (Z.to_nat prec))
   else []).
(** value.go:106-110, strconv ftoa.go fmtE with prec = nd - 1, without the sign. *)
Definition fmt_exponent (a : Z) : list ascii :=
  if a <? 10 then ["0"%char; digit a]
  else if a <? 100 then [digit (a / 10); digit (a mod 10)]
  else [digit (a / 100); digit (a / 10 mod 10); digit (a mod 10)].
(** The same, all of it. *)
Definition fmtE (ds : list ascii) (dp : Z) : list ascii :=
  let exp := if (length ds =? 0)%nat then 0 else dp - 1 in
  (match ds with d :: _ => d | [] => "0"%char end) ::
  (if 0 <? Z.of_nat (length ds) - 1 then "."%char :: skipn 1 ds else []) ++
  "e"%char :: (if exp <? 0 then "-"%char else "+"%char) :: fmt_exponent (Z.abs exp).
(** value.go:106-110, encode.go floatEncoder: clean up e-09 to e-9. *)
Definition clean_exp (t : list ascii) : list ascii :=
  match rev t with
  | d :: z :: s :: c :: r =>
      if Ascii.eqb c "e"%char && Ascii.eqb s "-"%char && Ascii.eqb z "0"%char then rev (d :: s :: c :: r) else t
  | _ => t
  end.
(** value.go:106-110, encode.go floatEncoder.encode, for 64 bits; [None] for NaN and the infinities. *)
Definition floatEncoder (b : Z) : option (list ascii) :=
  if finite64 b then
    let abs := f64_mag b in
    let '(ds, dp) := decimal_slice abs in
    let sign := if f64_neg b then ["-"%char] else [] in
    if negb (abs =? 0) && ((abs <? bits_1e_6) || (bits_1e21 <=? abs))
    then Some (clean_exp (sign ++ fmtE ds dp))
    else Some (sign ++ fmtF ds dp)
  else None.
(** value.go:106-110: the decimal that text shows: [JsonText.render_num] lays it out. *)
Definition go_float (b : Z) : bool * Z * Z :=
  let '(m, e) := shortest (f64_mag b) in
  if (0 <? e) && (f64_mag b <? bits_1e21) then (f64_neg b, m * 10 ^ e, 0) else (f64_neg b, m, e).

(** ** Specification *)
(** [t] is (-) m * 10^e, written with or without exponent. *)
Definition float_text (neg : bool) (m e : Z) (t : list ascii) : Prop :=
  let x := ndig m - 1 + e in    (* the exponent of the first digit *)
  let sign := if neg then chars "-" else [] in
  (((m = 0 ∧ e = 0) ∨ -6 ≤ x < 21) ∧
   ∃ int frac fds, t = sign ++ int ++ frac ∧ int_part int ∧ frac_part frac fds ∧
     decimal (int ++ fds) = m * 10 ^ Z.max e 0 ∧ Z.of_nat (length fds) = Z.max (- e) 0) ∨
  (m ≠ 0 ∧ ¬ -6 ≤ x < 21 ∧
   ∃ d frac fds xs, t = sign ++ [d] ++ frac ++ chars "e" ++ (if x <? 0 then chars "-" else chars "+") ++ xs ∧
     frac_part frac fds ∧ 0x31 ≤ bz d ≤ 0x39 ∧ decimal (d :: fds) = m ∧ int_part xs ∧ decimal xs = Z.abs x).

(** ** Proofs *)
(** *** The digits *)
Lemma digits_unique l l' : all_digits l → all_digits l' → l ≠ [] → l' ≠ [] →
  (∀ r, l = "0"%char :: r → r = []) → (∀ r, l' = "0"%char :: r → r = []) → decimal_value l = decimal_value l' → l = l'.
Proof.
  (* same length: same digits *)
  assert (∀ l l', length l = length l' → Forall (λ c, 0 ≤ digit_value c ≤ 9) l → Forall (λ c, 0 ≤ digit_value c ≤ 9) l' →
    decimal_value l = decimal_value l' → l = l') as Same.
  { clear. induction l as [|c l IH]; intros [|c' l'] Hl H H' E; try done. cbn [length] in Hl. injection Hl as Hl.
    apply Forall_cons in H as [Hc H]. apply Forall_cons in H' as [Hc' H']. cbn [decimal_value] in E.
    pose proof (decimal_value_bound _ H) as B. pose proof (decimal_value_bound _ H') as B'. rewrite Hl in *.
    set (T := 10 ^ Z.of_nat (length l')) in *. assert (digit_value c = digit_value c') as Ec by nia.
    rewrite (digit_value_inj _ _ Ec). f_equal. apply IH; try done. nia. }
  (* without leading zeros the value fixes the length *)
  assert (∀ l l', all_digits l → all_digits l' → (∀ r, l' = "0"%char :: r → r = []) →
    decimal_value l = decimal_value l' → (length l < length l')%nat → l = [] ∨ length l' = 1%nat) as Len.
  { clear. intros l l' H H' Hz' E Hlt. destruct l' as [|c' r']; [simpl in Hlt; lia|].
    destruct (Ascii.eqb_spec c' "0"%char) as [->|Hn]; [right; by rewrite (Hz' r' eq_refl)|].
    left. apply all_digits_value in H, H'. apply Forall_cons in H' as [Hc' H'].
    pose proof (decimal_value_bound _ H) as B. pose proof (decimal_value_bound _ H') as B'. cbn [decimal_value] in E.
    assert (1 ≤ digit_value c') as Hc1. { destruct (decide (digit_value c' = 0)) as [E0|]; [|lia]. destruct Hn. by apply digit_value_inj. }
    cbn [length] in Hlt. assert (10 ^ Z.of_nat (length l) ≤ 10 ^ Z.of_nat (length r')) as Hp by (apply Z.pow_le_mono_r; lia). nia. }
  intros H H' Hne Hne' Hz Hz' E. destruct (Nat.lt_trichotomy (length l) (length l')) as [L|[L|L]].
  - destruct (Len l l' H H' Hz' E L) as [->|L1]; [done|]. destruct l; [done|]. simpl in L. lia.
  - apply Same; [done|by apply all_digits_value|by apply all_digits_value|done].
  - destruct (Len l' l H' H Hz (eq_sym E) L) as [->|L1]; [done|]. destruct l'; [done|]. simpl in L. lia.
Qed.
Lemma decimal_value_app l l' : decimal_value (l ++ l') = decimal_value l * 10 ^ Z.of_nat (length l') + decimal_value l'.
Proof.
  induction l as [|c l IH]; [done|]. cbn [app decimal_value]. rewrite IH, app_length, Nat2Z.inj_add, Z.pow_add_r by lia. ring.
Qed.
Lemma decimal_value_zeros k : decimal_value (repeat "0"%char k) = 0.
Proof. induction k as [|k IH]; [done|]. cbn [repeat decimal_value]. rewrite IH. change (digit_value "0"%char) with 0. lia. Qed.
Lemma digits_head m c l : 0 < m → digits m = c :: l → c ≠ "0"%char.
Proof.
  intros Hm E ->. destruct (digits_spec m ltac:(lia)) as (_ & _ & V & Z0). rewrite (Z0 l E) in E. rewrite E in V. vm_compute in V. lia.
Qed.
Lemma digits_shift m k : 0 < m → 0 ≤ k → digits (m * 10 ^ k) = digits m ++ repeat "0"%char (Z.to_nat k).
Proof.
  intros Hm Hk. pose proof (pow10_pos k Hk). destruct (digits_spec m ltac:(lia)) as (N1 & A1 & V1 & Z1).
  destruct (digits_spec (m * 10 ^ k) ltac:(nia)) as (N2 & A2 & V2 & Z2).
  apply digits_unique; try done.
  - apply Forall_app. split; [done|apply all_digits_zeros].
  - by destruct (digits m).
  - intros r Hr. destruct (digits m) as [|c l] eqn:E; [done|]. cbn [app] in Hr. injection Hr as -> _.
    by destruct (digits_head m _ _ Hm E).
  - rewrite V2, decimal_value_app, V1, decimal_value_zeros, repeat_length, Z2Nat.id by done. lia.
Qed.
Lemma digits_length m : 0 < m → Z.of_nat (length (digits m)) = ndig m.
Proof.
  intros Hm. destruct (digits_spec m ltac:(lia)) as (N & A & V & Z0). symmetry. destruct (digits m) as [|c l] eqn:E; [done|].
  pose proof (digits_head m _ _ Hm E) as Hc. apply all_digits_value in A. pose proof (decimal_value_bound _ A) as B. rewrite V in B.
  apply Forall_cons in A as [Hcd A]. pose proof (decimal_value_bound _ A) as B'. cbn [decimal_value] in V.
  assert (1 ≤ digit_value c). { destruct (decide (digit_value c = 0)) as [E0|]; [|lia]. destruct Hc. by apply digit_value_inj. }
  cbn [length] in *. apply ndig_unique; [|lia]. rewrite Nat2Z.inj_succ in *. split; [|lia].
  replace (Z.succ (Z.of_nat (length l)) - 1) with (Z.of_nat (length l)) by lia. nia.
Qed.
Lemma exponent_digits a : 0 ≤ a < 1000 →
  fmt_exponent a = (if a <? 10 then ["0"%char] else []) ++ digits a ∧
  (digits a = [digit a] ∧ a < 10 ∨ ∃ c d l, digits a = c :: d :: l ∧ c ≠ "0"%char ∧ (l = [] ∨ ∃ f, l = [f]) ∧ 10 ≤ a ∧ is_digit d = true).
Proof.
  intros Ha. rewrite <-(Z2Nat.id a) by lia.
  assert (∀ n, (n < 1000)%nat → fmt_exponent (Z.of_nat n) = (if Z.of_nat n <? 10 then ["0"%char] else []) ++ digits (Z.of_nat n)) as H.
  { assert (forallb (λ n, bool_decide (fmt_exponent (Z.of_nat n) = (if Z.of_nat n <? 10 then ["0"%char] else []) ++ digits (Z.of_nat n))) (seq 0 1000) = true) as Hall
      by (vm_compute; reflexivity).
    intros n Hn. rewrite forallb_forall in Hall. specialize (Hall n ltac:(apply in_seq; lia)). by apply bool_decide_eq_true in Hall. }
  specialize (H (Z.to_nat a) ltac:(lia)). rewrite (Z2Nat.id a) in * by lia. split; [done|]. unfold fmt_exponent in H.
  destruct (Z.ltb_spec a 10); [left; injection H as H; split; [done|lia]|right].
  assert (∀ l, digits a = l → all_digits l) as Hall by (intros l <-; apply (digits_spec a); lia).
  pose proof (digits_head a) as Hd. change ([] ++ digits a) with (digits a) in H.
  destruct (Z.ltb_spec a 100); symmetry in H; specialize (Hall _ H); specialize (Hd _ _ ltac:(lia) H);
    apply Forall_cons in Hall as [_ Hall]; apply Forall_cons in Hall as [Hd2 _]; eexists _, _, _; (split; [exact H|]); eauto 10.
Qed.

(** *** Where the notation changes *)
Lemma reads_mono d b b' w w' : 0 < d → 0 ≤ w → reads d b w → reads d b' w' → w ≤ w' → b ≤ b'.
Proof.
  intros Hd Hw [N T] [N' T'] Hle. destruct (decide (b ≤ b')) as [|Hgt]; [done|exfalso].
  assert (magnitude b) as M by apply N. assert (magnitude b') as M' by apply N'.
  pose proof N as N0. pose proof N' as N0'.
  apply nearest_iff in N as [_ L]; [|done|done]. apply nearest_iff in N' as [U _]; [|done|done].
  pose proof (pow2_pos 1074 ltac:(hlia)) as HP.
  assert (2 * (w * 2 ^ 1074) ≤ 2 * (w' * 2 ^ 1074)) as Hww by (set (P := 2 ^ 1074) in *; clearbody P; hnia).
  destruct (L b' M' ltac:(hlia)) as [L1|[L1 _]]; destruct (U b M ltac:(hlia)) as [U1|[U1 _]]; try hlia.
  assert (w = w') as -> by (set (P := 2 ^ 1074) in *; clearbody P; hnia).
  pose proof (nearest_unique _ _ _ _ N0 N0' Hd Hw). hlia.
Qed.
Lemma reads_mono' D b b' v v' : 0 < D → 0 ≤ v → reads (2 ^ 1074 * D) b (2 ^ 1074 * v) → reads (2 ^ 1074 * D) b' (2 ^ 1074 * v') → v ≤ v' → b ≤ b'.
Proof.
  intros HD Hv R R' Hle. pose proof (pow2_pos 1074 ltac:(lia)) as HA.
  set (A := 2 ^ 1074) in *. clearbody A. assert (0 < A * D) as H1 by nia. assert (0 ≤ A * v) as H2 by nia. assert (A * v ≤ A * v') as H3 by nia.
  exact (reads_mono _ b b' _ _ H1 H2 R R' H3).
Qed.
Lemma sci_bounds K m e : 0 < m → 0 ≤ K → - K ≤ e → 10 ^ (ndig m - 1 + e + K) ≤ at_K K m e < 10 ^ (ndig m + e + K).
Proof.
  intros Hm HK He. destruct (ndig_spec m Hm) as (G & G1 & G2). unfold at_K. pose proof (pow10_pos (e + K) ltac:(lia)).
  replace (ndig m - 1 + e + K) with (ndig m - 1 + (e + K)) by lia. replace (ndig m + e + K) with (ndig m + (e + K)) by lia.
  rewrite (pow10_split (ndig m - 1)), (pow10_split (ndig m)) by lia. nia.
Qed.
Lemma shortest_reads b : magnitude b → 0 < b → ∃ m e, shortest b = (m, e) ∧ 0 < m ∧ double_for false m e b ∧ ndig m ≤ 17.
Proof.
  intros M Hb. destruct (shortest_pos b M Hb) as [Hm [Hd Hmin]]. exists (shortest b).1, (shortest b).2.
  split; [by destruct (shortest b)|]. split; [done|]. split; [done|].
  pose proof (units_pos b Hb) as Hu. set (p := dec_point (f64_units b)) in *. set (K := Z.abs p + 17).
  destruct (try_cases K b p 17 ltac:(unfold K; lia) ltac:(unfold K; lia) Hu) as (lo & Hlo & Hl0 & H).
  pose proof (try_17 b M Hb) as Ht. fold p in Ht. destruct (try_digits b p 17) as [r|]; [|done].
  destruct H as (v & [Hv Hv2] & _).
  pose proof (dec_point_K K (f64_units b) Hu ltac:(unfold K; lia) ltac:(fold p; unfold K; lia)) as HP. fold p in HP.
  assert (0 < 2 ^ 1074) as HA by (apply pow2_pos; lia).
  destruct (no_between K _ p 17 lo 0 0 _ HA ltac:(unfold K; lia) ltac:(lia) ltac:(unfold K; lia) ltac:(unfold K; lia) ltac:(vm_compute; split; congruence) HP Hlo) as [Hl _].
  change (10 ^ (17 - 1)) with 10000000000000000 in Hl. change (10 ^ 17) with 100000000000000000 in Hl.
  destruct (decide (v = 10 ^ 17)) as [E|E].
  { assert (double_for false 1 p b) as H1.
    { apply (double_for_K K); [unfold K; lia|unfold K; lia|]. apply (double_for_K K _ _ b) in Hv; [|unfold K; lia|unfold K; lia].
      replace (at_K K 1 p) with (at_K K v (p - 17)); [done|]. unfold at_K. rewrite E, Z.mul_1_l, <-Z.pow_add_r by (unfold K; lia).
      f_equal. lia. }
    change (ndig (shortest b).1 ≤ 17). destruct (Hmin 1 p ltac:(lia) H1) as [L|[L _]]; change (ndig 1) with 1 in L; lia. }
  assert (ndig v ≤ 17) as Hv17 by (change (10 ^ 17) with 100000000000000000 in E; apply ndig_lt; [lia|lia|change (10 ^ 17) with 100000000000000000; lia]).
  destruct (Hmin v (p - 17) ltac:(lia) Hv) as [L|[L _]]; lia.
Qed.
Lemma shortest_cmp b m e c k : magnitude b → 0 < b → shortest b = (m, e) → f64_of_dec false 1 k = Some c → shortest c = (1, k) →
  b < c ↔ ndig m - 1 + e < k.
Proof.
  intros M Hb Es Hc Ec. destruct (shortest_reads b M Hb) as (m' & e' & Es' & Hm & Hd & _). rewrite Es in Es'. injection Es' as <- <-.
  apply double_for_iff in Hc; [|lia]. set (K := Z.abs e + Z.abs k + ndig m). destruct (ndig_spec m Hm) as (Gn & _).
  assert (0 ≤ K) as HK by (unfold K; lia). assert (- K ≤ e) as He by (unfold K; lia). assert (- K ≤ k) as Hk by (unfold K; lia).
  pose proof (sci_bounds K m e Hm HK He) as [S1 S2].
  assert (at_K K 1 k = 10 ^ (k + K)) as E1 by (unfold at_K; lia).
  rewrite (double_for_K K _ _ b HK He) in Hd. rewrite (double_for_K K _ _ c HK Hk), E1 in Hc.
  pose proof (pow10_pos K HK) as HD. pose proof (pow2_pos 1074 ltac:(lia)) as HA. assert (0 < 2 ^ 1074 * 10 ^ K) as HAD by nia.
  pose proof (pow10_pos (k + K) ltac:(lia)) as HT. assert (0 < at_K K m e) as Hat by (pose proof (pow10_pos (ndig m - 1 + e + K) ltac:(unfold K; lia)); lia).
  split; intros Hlt.
  - destruct (decide (ndig m - 1 + e < k)) as [|Hge]; [done|exfalso].
    assert (10 ^ (k + K) ≤ at_K K m e) as Hle. { etrans; [|exact S1]. apply Z.pow_le_mono_r; lia. }
    pose proof (reads_mono' (10 ^ K) c b _ _ HD (Z.lt_le_incl _ _ HT) Hc Hd Hle). lia.
  - assert (at_K K m e < 10 ^ (k + K)) as Hle. { eapply Z.lt_le_trans; [exact S2|]. apply Z.pow_le_mono_r; lia. }
    pose proof (reads_mono' (10 ^ K) b c _ _ HD (Z.lt_le_incl _ _ Hat) Hd Hc (Z.lt_le_incl _ _ Hle)) as Hbc.
    destruct (decide (b = c)) as [->|]; [exfalso|lia]. rewrite Ec in Es. injection Es as <- <-. unfold at_K in Hle. lia.
Qed.
Lemma sci_range b m e : magnitude b → 0 < b → shortest b = (m, e) → Z.abs (ndig m - 1 + e) < 1000.
Proof.
  intros M Hb Es. destruct (shortest_reads b M Hb) as (m' & e' & Es' & Hm & Hd & _). rewrite Es in Es'. injection Es' as <- <-.
  set (K := Z.abs e + 1000 + ndig m). destruct (ndig_spec m Hm) as (Gn & _).
  assert (0 ≤ K) as HK by (unfold K; lia). assert (- K ≤ e) as He by (unfold K; lia).
  pose proof (sci_bounds K m e Hm HK He) as [S1 S2].
  rewrite (double_for_K K _ _ b HK He) in Hd. pose proof (pow10_pos K HK) as HD. pose proof (pow2_pos 1074 ltac:(lia)) as HA.
  assert (0 < 2 ^ 1074 * 10 ^ K) as HAD by nia.
  assert (ndig m - 1 + e < 400) as Hup.
  { destruct (decide (ndig m - 1 + e < 400)) as [|Hge]; [done|exfalso]. destruct Hd as [_ T]. apply T. unfold too_big.
    assert (10 ^ (400 + K) ≤ at_K K m e) as Hle. { etrans; [|exact S1]. apply Z.pow_le_mono_r; lia. }
    rewrite pow10_split in Hle by lia.
    assert ((2 ^ 54 - 1) * 2 ^ 970 < 10 ^ 400) as Hb400 by (vm_compute; reflexivity).
    set (A := 2 ^ 1074) in *. set (X := (2 ^ 54 - 1) * 2 ^ 970) in *. set (Y := 10 ^ 400) in *. clearbody A X Y.
    assert (10 ^ K * X ≤ at_K K m e) by nia. nia. }
  assert (-401 < ndig m - 1 + e) as Hlow.
  { destruct (decide (-401 < ndig m - 1 + e)) as [|Hge]; [done|exfalso].
    assert (double_for false 1 (-400) 0) as Hz by (apply double_for_iff; [lia|vm_compute; reflexivity]).
    assert (- K ≤ -400) as Hk by (unfold K; lia).
    rewrite (double_for_K K _ _ 0 HK Hk) in Hz.
    assert (at_K K m e ≤ at_K K 1 (-400)) as Hle.
    { unfold at_K at 2. rewrite Z.mul_1_l. transitivity (10 ^ (ndig m + e + K)); [lia|]. apply Z.pow_le_mono_r; lia. }
    assert (0 ≤ at_K K m e) as Hat by (pose proof (pow10_pos (ndig m - 1 + e + K) ltac:(unfold K; lia)); lia).
    pose proof (reads_mono' (10 ^ K) b 0 _ _ HD Hat Hd Hz Hle). lia. }
  lia.
Qed.
Lemma mag_magnitude b : finite64 b = true → magnitude (f64_mag b).
Proof. rewrite finite64_spec. intros [_ H]. pose proof (mag_bound b). unfold magnitude. change 0x7FF0000000000000 with (2047 * 2 ^ 52). lia. Qed.
(** The notation [floatEncoder] chooses, in terms of the decimal. *)
Lemma notation_range b m e : magnitude b → 0 < b → shortest b = (m, e) →
  (b <? bits_1e_6) = (ndig m - 1 + e <? -6) ∧ (bits_1e21 <=? b) = (21 <=? ndig m - 1 + e) ∧ (b <? bits_1e21) = (ndig m - 1 + e <? 21).
Proof.
  intros M Hb Es.
  pose proof (shortest_cmp b m e bits_1e_6 (-6) M Hb Es ltac:(vm_compute; reflexivity) ltac:(vm_compute; reflexivity)) as H1.
  pose proof (shortest_cmp b m e bits_1e21 21 M Hb Es ltac:(vm_compute; reflexivity) ltac:(vm_compute; reflexivity)) as H2.
  split_and!.
  - destruct (Z.ltb_spec b bits_1e_6); destruct (Z.ltb_spec (ndig m - 1 + e) (-6)); try done; tauto || lia.
  - destruct (Z.leb_spec bits_1e21 b); destruct (Z.leb_spec 21 (ndig m - 1 + e)); try done; lia.
  - destruct (Z.ltb_spec b bits_1e21); destruct (Z.ltb_spec (ndig m - 1 + e) 21); try done; lia.
Qed.

(** *** The layout *)
Lemma nth_skipn {A} (l : list A) (d : A) (k n : nat) : (k + n = length l)%nat → map (λ i, nth (k + i) l d) (seq 0 n) = skipn k l.
Proof.
  revert l. induction k as [|k IH]; intros l Hl.
  - change (skipn 0 l) with l. cbn [Nat.add] in *. revert l Hl. induction n as [|n IHn]; intros l Hl; [by destruct l|].
    destruct l as [|x l]; [done|]. cbn [seq map nth]. f_equal. rewrite <-seq_shift, map_map. apply IHn. by injection Hl.
  - destruct l as [|x l]; [simpl in Hl; lia|]. cbn [skipn]. rewrite <-(IH l) by (simpl in Hl; lia). done.
Qed.
Lemma fmtF_whole ds k : 0 ≤ k → ds ≠ [] → fmtF ds (Z.of_nat (length ds) + k) = ds ++ repeat "0"%char (Z.to_nat k).
Proof.
  intros Hk Hne. unfold fmtF. assert (0 < Z.of_nat (length ds)) as Hl by (destruct ds; [done|cbn [length]; lia]).
  destruct (Z.ltb_spec 0 (Z.of_nat (length ds) + k)); [|lia].
  destruct (Z.ltb_spec 0 (Z.max (Z.of_nat (length ds) - (Z.of_nat (length ds) + k)) 0)); [lia|].
  rewrite app_nil_r. rewrite firstn_all2 by lia. do 2 f_equal. lia.
Qed.
Lemma fmtF_point ds k : 0 < k < Z.of_nat (length ds) →
  fmtF ds k = firstn (Z.to_nat k) ds ++ ["."%char] ++ skipn (Z.to_nat k) ds.
Proof.
  intros Hk. unfold fmtF. destruct (Z.ltb_spec 0 k); [|lia].
  destruct (Z.ltb_spec 0 (Z.max (Z.of_nat (length ds) - k) 0)); [|lia].
  assert (Z.to_nat (k - Z.of_nat (length ds)) = 0%nat) as -> by lia. cbn [repeat]. rewrite app_nil_r. f_equal. cbn [app]. f_equal.
  rewrite <-(nth_skipn ds "0"%char (Z.to_nat k) (Z.to_nat (Z.max (Z.of_nat (length ds) - k) 0))) by lia.
  apply map_ext. intros i. destruct (Z.leb_spec 0 (k + Z.of_nat i)); [|lia]. f_equal. lia.
Qed.
Lemma fmtF_below ds k : k ≤ 0 → ds ≠ [] →
  fmtF ds k = ["0"; "."]%char ++ repeat "0"%char (Z.to_nat (- k)) ++ ds.
Proof.
  intros Hk Hne. assert (0 < Z.of_nat (length ds)) as Hl by (destruct ds; [done|cbn [length]; lia]).
  unfold fmtF. destruct (Z.ltb_spec 0 k); [lia|]. destruct (Z.ltb_spec 0 (Z.max (Z.of_nat (length ds) - k) 0)); [|lia].
  cbn [app]. do 2 f_equal. set (z := Z.to_nat (- k)).
  assert (Z.to_nat (Z.max (Z.of_nat (length ds) - k) 0) = (z + length ds)%nat) as -> by (unfold z; lia).
  rewrite seq_app, map_app. f_equal.
  - assert (∀ n s, (s + n ≤ z)%nat → map (λ i, if 0 <=? k + Z.of_nat i then nth (Z.to_nat (k + Z.of_nat i)) ds "0"%char else "0"%char) (seq s n) = repeat "0"%char n) as Hm.
    { induction n as [|n IH]; intros s Hs; [done|]. cbn [seq map repeat]. f_equal; [|apply IH; lia].
      destruct (Z.leb_spec 0 (k + Z.of_nat s)); [unfold z in *; lia|done]. }
    apply Hm. lia.
  - assert (∀ n s, map (λ i, if 0 <=? k + Z.of_nat i then nth (Z.to_nat (k + Z.of_nat i)) ds "0"%char else "0"%char) (seq (z + s) n) =
                   map (λ i, nth (0 + i) ds "0"%char) (seq s n)) as Hm.
    2:{ replace (0 + z)%nat with (z + 0)%nat by lia. rewrite Hm. by rewrite (nth_skipn ds "0"%char 0 (length ds)). }
    induction n as [|n IH]; intros s; [done|]. cbn [seq map]. f_equal.
    + destruct (Z.leb_spec 0 (k + Z.of_nat (z + s))); [|unfold z in *; lia]. f_equal. unfold z in *. lia.
    + rewrite <-IH. f_equal. f_equal. lia.
Qed.
Lemma clean_exp_app t u : (length u ≥ 4)%nat → clean_exp (t ++ u) = t ++ clean_exp u.
Proof.
  intros Hl. unfold clean_exp. rewrite rev_app_distr. rewrite <-(rev_length u) in Hl.
  destruct (rev u) as [|d [|z [|s [|c r]]]]; try (simpl in Hl; lia). cbn [app].
  destruct (Ascii.eqb c "e"%char && Ascii.eqb s "-"%char && Ascii.eqb z "0"%char); [|done].
  change (d :: s :: c :: r ++ rev t) with ((d :: s :: c :: r) ++ rev t). by rewrite rev_app_distr, rev_involutive.
Qed.
Lemma clean_exp_render x : Z.abs x < 1000 → x < 0 ∨ 10 ≤ x →
  clean_exp ("e"%char :: (if x <? 0 then "-"%char else "+"%char) :: fmt_exponent (Z.abs x)) = render_exp x.
Proof.
  intros Hx Hr. destruct (exponent_digits (Z.abs x) ltac:(lia)) as [-> [[Hd Ha]|(c & d & l & Hd & Hc & Hl & Ha & Hdd)]]; unfold render_exp; rewrite Hd.
  - destruct (Z.ltb_spec x 0); [|lia]. destruct (Z.ltb_spec (Z.abs x) 10); [|lia]. reflexivity.
  - destruct (Z.ltb_spec (Z.abs x) 10); [lia|].
    assert (c ≠ "e"%char) as Hce. { intros ->. destruct (digits_spec (Z.abs x) ltac:(lia)) as (_ & A & _). rewrite Hd in A. apply Forall_cons in A as [A _]. done. }
    destruct Hl as [->|[f ->]]; destruct (x <? 0); cbn [app]; unfold clean_exp; cbn [rev app].
    + destruct (Ascii.eqb_spec c "0"%char); [done|]. rewrite andb_false_r. reflexivity.
    + destruct (Ascii.eqb_spec c "0"%char); [done|]. rewrite andb_false_r. reflexivity.
    + reflexivity.
    + reflexivity.
Qed.
Lemma floatEncoder_render b : finite64 b = true → floatEncoder b = Some (let '(neg, m, e) := go_float b in render_num neg m e).
Proof.
  intros Hf. unfold floatEncoder. rewrite Hf. pose proof (mag_magnitude b Hf) as M. unfold go_float, decimal_slice.
  destruct (Z.eqb_spec (f64_mag b) 0) as [E0|E0]; cbn [negb andb].
  { rewrite E0. change (shortest 0) with (0, 0). cbn [Z.ltb Z.compare andb]. unfold render_num, fmtF. by destruct (f64_neg b). }
  assert (0 < f64_mag b) as Hb by (unfold magnitude in M; lia).
  destruct (shortest_reads _ M Hb) as (m & e & Es & Hm & Hd & H18). rewrite Es.
  destruct (notation_range _ _ _ M Hb Es) as (R1 & R2 & R3). rewrite R1, R2, R3. pose proof (sci_range _ _ _ M Hb Es) as Hx.
  pose proof (digits_length m Hm) as Hlen. destruct (digits_spec m ltac:(lia)) as (Hne & _).
  destruct (Z.ltb_spec 0 e) as [He|He]; cbn [andb]; [destruct (Z.ltb_spec (ndig m - 1 + e) 21) as [H21|H21]|].
  - (* an integer that ends in zeros *)
    destruct (Z.ltb_spec (ndig m - 1 + e) (-6)); [destruct (ndig_spec m Hm); lia|].
    destruct (Z.leb_spec 21 (ndig m - 1 + e)); [lia|]. cbn [orb]. f_equal. unfold render_num.
    rewrite fmtF_whole by (done || lia). rewrite digits_shift by lia. done.
  - destruct (Z.leb_spec 21 (ndig m - 1 + e)); [|lia]. rewrite orb_true_r. f_equal. unfold render_num.
    rewrite Hlen. destruct (Z.eqb_spec e 0); [lia|]. destruct (Z.ltb_spec e 0); [lia|]. cbn [andb].
    assert (ndig m + e - 1 = ndig m - 1 + e) as Ex by lia. unfold fmtE. rewrite Hlen, Ex.
    destruct (digits m) as [|d ds] eqn:Ed; [done|]. cbn [length Nat.eqb].
    set (x := ndig m - 1 + e) in *. rewrite (app_comm_cons _ _ d). rewrite app_assoc. rewrite clean_exp_app.
    2:{ destruct (exponent_digits (Z.abs x) ltac:(lia)) as [-> [[Hdx Ha]|(c & d' & l & Hdx & _ & _ & Ha & _)]]; rewrite Hdx.
        - destruct (Z.ltb_spec (Z.abs x) 10); [simpl; lia|lia].
        - destruct (Z.ltb_spec (Z.abs x) 10); [lia|]. cbn [app length]. lia. }
    rewrite clean_exp_render by lia. rewrite <-app_assoc. f_equal. cbn [app]. f_equal. f_equal.
    change (skipn 1 (d :: ds)) with ds. destruct ds as [|d2 ds]; destruct (Z.ltb_spec 0 (ndig m - 1)); try done; cbn [length] in Hlen; lia.
  - destruct (Z.leb_spec 21 (ndig m - 1 + e)); [lia|]. rewrite orb_false_r.
    destruct (Z.ltb_spec (ndig m - 1 + e) (-6)) as [H6|H6].
    + f_equal. unfold render_num.
      rewrite Hlen. destruct (Z.eqb_spec e 0); [destruct (ndig_spec m Hm); lia|]. destruct (Z.ltb_spec e 0); [|lia].
      destruct (Z.leb_spec (-6) (ndig m - 1 + e)); [lia|]. cbn [andb].
      assert (ndig m + e - 1 = ndig m - 1 + e) as Ex by lia. unfold fmtE. rewrite Hlen, Ex.
      destruct (digits m) as [|d ds] eqn:Ed; [done|]. cbn [length Nat.eqb].
      set (x := ndig m - 1 + e) in *. rewrite (app_comm_cons _ _ d). rewrite app_assoc. rewrite clean_exp_app.
      2:{ destruct (exponent_digits (Z.abs x) ltac:(lia)) as [-> [[Hdx Ha]|(c & d' & l & Hdx & _ & _ & Ha & _)]]; rewrite Hdx.
          - destruct (Z.ltb_spec (Z.abs x) 10); [simpl; lia|lia].
          - destruct (Z.ltb_spec (Z.abs x) 10); [lia|]. cbn [app length]. lia. }
      rewrite clean_exp_render by lia. rewrite <-app_assoc. f_equal. cbn [app]. f_equal. f_equal.
      change (skipn 1 (d :: ds)) with ds. destruct ds as [|d2 ds]; destruct (Z.ltb_spec 0 (ndig m - 1)); try done; cbn [length] in Hlen; lia.
    + f_equal. unfold render_num. rewrite Hlen. f_equal. destruct (Z.eqb_spec e 0) as [->|].
      * rewrite <-Hlen, fmtF_whole by done. cbn [Z.to_nat repeat]. by rewrite app_nil_r.
      * destruct (Z.ltb_spec e 0); [|lia]. destruct (Z.leb_spec (-6) (ndig m - 1 + e)); [|lia]. cbn [andb].
        destruct (Z.ltb_spec (- e) (ndig m)).
        -- rewrite fmtF_point by lia. done.
        -- rewrite fmtF_below by (done || lia). cbn [app]. do 4 f_equal. lia.
Qed.

(** *** It reads back *)
Lemma f64_of_dec_neg neg m e b : f64_of_dec false m e = Some b → f64_of_dec neg m e = Some (if neg : bool then 2 ^ 63 + b else b).
Proof. unfold f64_of_dec. destruct (if 0 <=? e then _ else _) as [c|]; [|done]. intros [= ->]. done. Qed.
Lemma go_float_ok : float_format go_float.
Proof.
  intros b Hf. pose proof (mag_magnitude b Hf) as M. unfold go_float.
  destruct (shortest_ok _ M) as [Hm [Hd _]]. destruct (shortest (f64_mag b)) as [m e]. cbn [fst snd] in *.
  apply double_for_iff in Hd; [|done]. apply (f64_of_dec_neg (f64_neg b)) in Hd.
  apply finite64_spec in Hf as [Hf _]. rewrite (sign_join b Hf) in Hd.
  destruct ((0 <? e) && (f64_mag b <? bits_1e21)) eqn:E; [|done].
  rewrite andb_true_iff, Z.ltb_lt in E. destruct E as [He _]. pose proof (pow10_pos e ltac:(lia)). split; [nia|].
  rewrite <-Hd. unfold f64_of_dec. change (0 <=? 0) with true. destruct (Z.leb_spec 0 e); [|lia]. cbv iota.
  change (10 ^ 0) with 1. by rewrite Z.mul_1_r.
Qed.

(** *** It is laid out as specified *)
Lemma digits_int m : 0 ≤ m → int_part (digits m).
Proof.
  intros Hm. destruct (digits_spec m Hm) as (N & A & V & Z0). destruct (digits m) as [|c l]; [done|].
  apply Forall_cons in A as [Hc A]. destruct (Ascii.eqb_spec c "0"%char) as [->|Hn].
  - left. by rewrite (Z0 l eq_refl).
  - right. exists c, l. split; [done|]. split; [|by apply decimals_all]. unfold is_digit in Hc. apply inr_spec in Hc.
    assert (bz c ≠ 0x30); [|lia]. intros E. apply Hn. by apply bz_inj.
Qed.
Lemma float_text_render neg m e : 0 < m →
  (e ≤ 0 → ndig m - 1 + e < 21) →
  float_text neg m e (if (0 <? e) && (ndig m - 1 + e <? 21) then render_num neg (m * 10 ^ e) 0 else render_num neg m e).
Proof.
  intros Hm H21. pose proof (digits_length m Hm) as Hlen. destruct (digits_spec m ltac:(lia)) as (Hne & A & V & Z0).
  destruct (ndig_spec m Hm) as (G & _).
  destruct (decide (-6 ≤ ndig m - 1 + e < 21)) as [Hr|Hr].
  - left. split; [by right|]. destruct (Z.ltb_spec 0 e) as [He|He]; cbn [andb].
    + destruct (Z.ltb_spec (ndig m - 1 + e) 21); [|lia]. pose proof (pow10_pos e ltac:(lia)).
      exists (digits (m * 10 ^ e)), [], []. unfold render_num. change (0 =? 0) with true. cbv iota.
      split; [by rewrite app_nil_r|]. split; [apply digits_int; nia|]. split; [by left|].
      rewrite app_nil_r, decimal_eq. destruct (digits_spec (m * 10 ^ e) ltac:(nia)) as (_ & _ & -> & _).
      split; [f_equal; f_equal; lia|cbn [length]; lia].
    + unfold render_num. rewrite Hlen. destruct (Z.eqb_spec e 0) as [->|].
      * exists (digits m), [], []. split; [by rewrite app_nil_r|]. split; [apply digits_int; lia|]. split; [by left|].
        rewrite app_nil_r, decimal_eq, V. change (10 ^ Z.max 0 0) with 1. split; [lia|cbn [length]; lia].
      * destruct (Z.ltb_spec e 0); [|lia]. destruct (Z.leb_spec (-6) (ndig m - 1 + e)); [|lia]. cbn [andb].
        replace (Z.max e 0) with 0 by lia. change (10 ^ 0) with 1. rewrite Z.mul_1_r.
        destruct (Z.ltb_spec (- e) (ndig m)).
        -- set (k := Z.to_nat (ndig m + e)).
           assert (0 < k < length (digits m))%nat as Hk by (unfold k; lia).
           exists (firstn k (digits m)), ("."%char :: skipn k (digits m)), (skipn k (digits m)).
           split; [done|]. split.
           { destruct (digits_int m ltac:(lia)) as [E|(c & l & E & Hc & Hl)].
             - rewrite E in Hk. cbn [length chars list_ascii_of_string] in Hk. lia.
             - rewrite E. destruct k as [|k]; [lia|]. right. exists c, (firstn k l). split; [done|]. split; [done|].
               unfold decimals in *. by apply Forall_take. }
           split. { right. split; [done|]. split; [intros E; apply (f_equal length) in E; rewrite skipn_length in E; cbn [length] in E; lia|].
             apply decimals_all. unfold all_digits in *. by apply Forall_drop. }
           rewrite firstn_skipn, decimal_eq, V. split; [done|]. rewrite skipn_length. unfold k in *. lia.
        -- exists ["0"%char], ("."%char :: repeat "0"%char (Z.to_nat (- e - ndig m)) ++ digits m), (repeat "0"%char (Z.to_nat (- e - ndig m)) ++ digits m).
           split; [done|]. split; [by left|]. split.
           { right. split; [done|]. split; [by destruct (repeat _ _), (digits m)|]. apply decimals_all. apply Forall_app.
             split; [apply all_digits_zeros|done]. }
           rewrite decimal_eq. change (["0"%char] ++ repeat "0"%char (Z.to_nat (- e - ndig m)) ++ digits m) with (repeat "0"%char (S (Z.to_nat (- e - ndig m))) ++ digits m).
           rewrite decimal_value_lead, V. split; [done|]. rewrite app_length, repeat_length. lia.
  - right. split; [lia|]. split; [done|].
    assert ((0 <? e) && (ndig m - 1 + e <? 21) = false) as ->.
    { destruct (Z.ltb_spec 0 e); destruct (Z.ltb_spec (ndig m - 1 + e) 21); cbn [andb]; try done; lia. }
    unfold render_num. rewrite Hlen.
    destruct (Z.eqb_spec e 0); [lia|].
    assert ((e <? 0) && (-6 <=? ndig m - 1 + e) = false) as ->.
    { destruct (Z.ltb_spec e 0); destruct (Z.leb_spec (-6) (ndig m - 1 + e)); cbn [andb]; try done. lia. }
    destruct (digits m) as [|d ds] eqn:Ed; [done|]. unfold all_digits in A. apply Forall_cons in A as [Hd A].
    exists d, (match ds with [] => [] | _ :: _ => "."%char :: ds end), ds, (digits (Z.abs (ndig m - 1 + e))).
    split. { unfold render_exp. by destruct (_ <? 0). }
    split. { destruct ds; [by left|right]. split; [done|]. split; [done|by apply decimals_all]. }
    split. { destruct (digits_int m ltac:(lia)) as [E|(c & l & E & Hc & Hl)].
      - rewrite Ed in E. injection E as -> _. by destruct (digits_head m _ _ Hm Ed).
      - rewrite Ed in E. by injection E as -> _. }
    split; [by rewrite decimal_eq|]. split; [apply digits_int; lia|]. rewrite decimal_eq.
    by destruct (digits_spec (Z.abs (ndig m - 1 + e)) ltac:(lia)) as (_ & _ & -> & _).
Qed.
Lemma floatEncoder_text b : finite64 b = true →
  ∃ t, floatEncoder b = Some t ∧ float_text (f64_neg b) (shortest (f64_mag b)).1 (shortest (f64_mag b)).2 t.
Proof.
  intros Hf. rewrite (floatEncoder_render b Hf). eexists. split; [reflexivity|]. unfold go_float.
  pose proof (mag_magnitude b Hf) as M. destruct (decide (f64_mag b = 0)) as [E0|E0].
  { rewrite E0. change (shortest 0) with (0, 0). cbn [fst snd Z.ltb Z.compare andb]. left. split; [by left|].
    exists ["0"%char], [], []. split; [by rewrite app_nil_r|]. split; [by left|]. split; [by left|]. split; done. }
  assert (0 < f64_mag b) as Hb by (unfold magnitude in M; lia).
  destruct (shortest_reads _ M Hb) as (m & e & Es & Hm & Hd & H18). rewrite Es. cbn [fst snd].
  destruct (notation_range _ _ _ M Hb Es) as (_ & _ & R3). rewrite R3.
  pose proof (float_text_render (f64_neg b) m e Hm ltac:(lia)) as H.
  by destruct ((0 <? e) && (ndig m - 1 + e <? 21)).
Qed.

(** *** Only one text is laid out as specified *)
Lemma decimals_unique l l' : length l = length l' → decimals l → decimals l' → decimal l = decimal l' → l = l'.
Proof.
  rewrite !decimal_eq, !decimals_all, !all_digits_value. revert l'.
  induction l as [|c l IH]; intros [|c' l'] Hl H H' E; try done. cbn [length] in Hl. injection Hl as Hl.
  apply Forall_cons in H as [Hc H]. apply Forall_cons in H' as [Hc' H']. cbn [decimal_value] in E.
  pose proof (decimal_value_bound _ H) as B. pose proof (decimal_value_bound _ H') as B'. rewrite Hl in *.
  set (T := 10 ^ Z.of_nat (length l')) in *. assert (digit_value c = digit_value c') as Ec by nia.
  rewrite (digit_value_inj _ _ Ec). f_equal. apply IH; try done. nia.
Qed.
Lemma int_part_spec l : int_part l → l ≠ [] ∧ all_digits l ∧ (∀ r, l = "0"%char :: r → r = []).
Proof.
  intros [->|(c & l' & -> & Hc & Hl)].
  - split_and!; [done| |]; [apply List.Forall_cons; [done|apply List.Forall_nil]|]. by intros r [= <-].
  - split; [done|]. split.
    + apply List.Forall_cons; [unfold is_digit; apply inr_spec; lia|]. by apply decimals_all.
    + intros r [= -> _]. vm_compute in Hc. by destruct Hc as [[] _].
Qed.
Lemma int_part_unique l l' : int_part l → int_part l' → decimal l = decimal l' → l = l'.
Proof.
  intros H H'. rewrite !decimal_eq. apply int_part_spec in H as (N & A & Z0). apply int_part_spec in H' as (N' & A' & Z0').
  by apply digits_unique.
Qed.
Lemma frac_digits frac fds : frac_part frac fds → decimals fds ∧ frac = match fds with [] => [] | _ => "."%char :: fds end.
Proof. intros [[-> ->]|(-> & Hne & H)]; [split; [apply List.Forall_nil|done]|]. split; [done|]. by destruct fds. Qed.
Lemma decimal_split l l' : decimals l' → decimal (l ++ l') = decimal l * 10 ^ Z.of_nat (length l') + decimal l' ∧ 0 ≤ decimal l' < 10 ^ Z.of_nat (length l').
Proof.
  intros H. rewrite !decimal_eq. split; [apply decimal_value_app|]. apply decimal_value_bound. by apply all_digits_value, decimals_all.
Qed.
Lemma float_text_unique neg m e t t' : float_text neg m e t → float_text neg m e t' → t = t'.
Proof.
  intros [(Hr & int & frac & fds & -> & Hi & Hf & Hv & Hl)|(H0 & Hr & d & frac & fds & xs & -> & Hf & Hd & Hv & Hx & Hxv)]
         [(Hr' & int' & frac' & fds' & -> & Hi' & Hf' & Hv' & Hl')|(H0' & Hr' & d' & frac' & fds' & xs' & -> & Hf' & Hd' & Hv' & Hx' & Hxv')];
    try (exfalso; destruct_or?; lia).
  - apply frac_digits in Hf as [Df ->]. apply frac_digits in Hf' as [Df' ->].
    destruct (decimal_split int fds Df) as [E1 B1]. destruct (decimal_split int' fds' Df') as [E2 B2].
    assert (length fds = length fds') as El by lia. rewrite El in *. rewrite E1 in Hv. rewrite E2 in Hv'.
    set (T := 10 ^ Z.of_nat (length fds')) in *. clearbody T. rewrite <-Hv' in Hv.
    assert (decimal int = decimal int' ∧ decimal fds = decimal fds') as [Ei Ef].
    { apply (Z.div_mod_unique T); [by left|by left|lia]. }
    rewrite (int_part_unique _ _ Hi Hi' Ei), (decimals_unique _ _ El Df Df' Ef). done.
  - apply frac_digits in Hf as [Df ->]. apply frac_digits in Hf' as [Df' ->].
    assert (d :: fds = d' :: fds') as E.
    { apply int_part_unique; [right; by exists d, fds|right; by exists d', fds'|congruence]. }
    injection E as -> ->. rewrite (int_part_unique xs xs' Hx Hx') by congruence. done.
Qed.
