(** * Timestamps as JSON text: pkg/event/time.go, with time.Unix, UTC and
      Format(time.RFC3339Nano) of package time (Go 1.17 to 1.22). *)
From Verif Require Export GoBase.
From Coq Require Import ZArith Lia.
Local Open Scope Z_scope.

(** ** The model *)
(** time.isLeap *)
Definition isLeap (y : Z) : bool := (y mod 4 =? 0) && (negb (y mod 100 =? 0) || (y mod 400 =? 0)).
(** time.daysBefore *)
Definition daysBefore (m : Z) : Z :=
  nth (Z.to_nat m) [0; 31; 59; 90; 120; 151; 181; 212; 243; 273; 304; 334; 365] 365.
(** The second half of time.absDate: month (1 to 12) and day from the day of the year
    (from 0). *)
Definition month_day (leap : bool) (yday : Z) : Z * Z :=
  if leap && (yday =? 59) then (2, 29)
  else
    let day := if leap && (59 <? yday) then yday - 1 else yday in
    let month := day / 31 in
    let stop := daysBefore (month + 1) in
    let '(month, start) := if stop <=? day then (month + 1, stop) else (month, daysBefore month) in
    (month + 1, day - start + 1).
(** time.absDate: year, month, day for a number of days since 1 January of the year
    -292277022399; shifts by 2 are divisions by 4. *)
Definition absDate (d : Z) : Z * Z * Z :=
  let n := d / 146097 in
  let y := 400 * n in
  let d := d - 146097 * n in
  let n := d / 36524 in
  let n := n - n / 4 in
  let y := y + 100 * n in
  let d := d - 36524 * n in
  let n := d / 1461 in
  let y := y + 4 * n in
  let d := d - 1461 * n in
  let n := d / 365 in
  let n := n - n / 4 in
  let y := y + n in
  let d := d - 365 * n in
  let year := y + (-292277022399) in
  let '(month, day) := month_day (isLeap year) d in (year, month, day).

(** time.appendInt: [n] in decimal, with leading zeros, [w] digits (enough here). *)
Definition digit (n : Z) : ascii := ascii_of_N (Z.to_N (48 + n)).
Fixpoint appendInt (n : Z) (w : nat) : list ascii :=
  match w with O => [] | S w' => appendInt (n / 10) w' ++ [digit (n mod 10)] end.
(** time.formatNano with nine digits, trailing zeros removed, nothing if all are. *)
Fixpoint trim_zeros (l : list ascii) : list ascii :=
  match l with
  | [] => []
  | c :: l' => match trim_zeros l' with [] => if Ascii.eqb c "0"%char then [] else [c] | r => c :: r end
  end.
Definition formatNano (ns : Z) : list ascii :=
  match trim_zeros (appendInt ns 9) with [] => [] | r => "."%char :: r end.

(** time.go:41-43 MarshalJSON without the quotes: GoTime (33-35) is
    time.Unix(0, t).UTC(): whole seconds rounded down and nanoseconds.  9223372028715321600
    seconds lie between the year -292277022399 and 1970. *)
Definition time_text (t : Z) : string :=
  let sec := t / 1000000000 in
  let nsec := t mod 1000000000 in
  let abs := sec + 9223372028715321600 in
  let '(year, month, day) := absDate (abs / 86400) in
  let clock := abs mod 86400 in
  string_of_list_ascii
    (appendInt year 4 ++ ["-"%char] ++ appendInt month 2 ++ ["-"%char] ++ appendInt day 2 ++ ["T"%char] ++
     appendInt (clock / 3600) 2 ++ [":"%char] ++ appendInt (clock mod 3600 / 60) 2 ++ [":"%char] ++
     appendInt (clock mod 60) 2 ++ formatNano nsec ++ ["Z"%char]).

(** ** Specification: the Gregorian calendar *)
Definition leap_year (y : Z) : Prop := (4 | y) ∧ (¬ (100 | y) ∨ (400 | y)).
Definition days_in_month (leap : bool) (m : Z) : Z :=
  if (m =? 2) then (if leap then 29 else 28)
  else if (m =? 4) || (m =? 6) || (m =? 9) || (m =? 11) then 30 else 31.
Fixpoint days_before_month (leap : bool) (m : nat) : Z :=
  match m with O => 0 | S O => 0 | S m' => days_before_month leap m' + days_in_month leap (Z.of_nat m') end.
(** Days from 1 January of year 1 to 1 January of year [y]: leap years counted. *)
Definition days_before_year (y : Z) : Z := 365 * (y - 1) + (y - 1) / 4 - (y - 1) / 100 + (y - 1) / 400.
(** A date and time of day, UTC. *)
Record moment : Type := mkMoment {
  mo_year : Z; mo_month : Z; mo_day : Z; mo_hour : Z; mo_min : Z; mo_sec : Z; mo_nano : Z }.
Definition moment_ok (m : moment) : Prop :=
  1 ≤ mo_month m ≤ 12 ∧ 1 ≤ mo_day m ≤ days_in_month (isLeap (mo_year m)) (mo_month m) ∧
  0 ≤ mo_hour m < 24 ∧ 0 ≤ mo_min m < 60 ∧ 0 ≤ mo_sec m < 60 ∧ 0 ≤ mo_nano m < 1000000000.
(** Days since 1 January of year 1, and nanoseconds since 1 January 1970. *)
Definition moment_days (m : moment) : Z :=
  days_before_year (mo_year m) + days_before_month (isLeap (mo_year m)) (Z.to_nat (mo_month m)) + mo_day m - 1.
Definition unix_nanos (m : moment) : Z :=
  (((moment_days m - moment_days (mkMoment 1970 1 1 0 0 0 0)) * 24 + mo_hour m) * 60 + mo_min m) * 60 * 1000000000
    + mo_sec m * 1000000000 + mo_nano m.
(** [decimal_text w n]: [w] characters, the decimal digits of [n]. *)
Definition digit_value (c : ascii) : Z := Z.of_N (N_of_ascii c) - 48.
Fixpoint decimal_value (l : list ascii) : Z :=
  match l with [] => 0 | c :: l' => digit_value c * 10 ^ Z.of_nat (length l') + decimal_value l' end.
Definition decimal_text (w : nat) (n : Z) (l : list ascii) : Prop :=
  length l = w ∧ Forall (λ c, 0 ≤ digit_value c ≤ 9) l ∧ decimal_value l = n.
(** RFC 3339 text of a moment: a fraction of [k] digits, not ending in 0, and none if
    the nanoseconds are 0. *)
Definition fraction_text (ns : Z) (l : list ascii) : Prop :=
  (ns = 0 ∧ l = []) ∨
  ∃ k f ds, (1 ≤ k ≤ 9)%nat ∧ l = "."%char :: ds ∧ decimal_text k f ds ∧ f mod 10 ≠ 0 ∧
            ns = f * 10 ^ Z.of_nat (9 - k).
Definition rfc3339 (m : moment) (s : string) : Prop :=
  ∃ y mo d h mi se fr,
    s = string_of_list_ascii (y ++ ["-"%char] ++ mo ++ ["-"%char] ++ d ++ ["T"%char] ++ h ++ [":"%char] ++ mi ++
                              [":"%char] ++ se ++ fr ++ ["Z"%char]) ∧
    decimal_text 4 (mo_year m) y ∧ decimal_text 2 (mo_month m) mo ∧ decimal_text 2 (mo_day m) d ∧
    decimal_text 2 (mo_hour m) h ∧ decimal_text 2 (mo_min m) mi ∧ decimal_text 2 (mo_sec m) se ∧
    fraction_text (mo_nano m) fr.

(** ** Proofs *)
Lemma isLeap_spec y : isLeap y = true ↔ leap_year y.
Proof.
  unfold isLeap, leap_year. rewrite andb_true_iff, orb_true_iff, negb_true_iff, !Z.eqb_eq, Z.eqb_neq.
  rewrite <- !Z.mod_divide by lia. done.
Qed.

(** Every day of the year, checked in both kinds of year. *)
Definition yday_ok (leap : bool) (yday : Z) : bool :=
  let '(m, d) := month_day leap yday in
  (1 <=? m) && (m <=? 12) && (1 <=? d) && (d <=? days_in_month leap m) &&
  (days_before_month leap (Z.to_nat m) + d - 1 =? yday).
Lemma month_day_check (leap : bool) : forallb (λ n, yday_ok leap (Z.of_nat n)) (seq 0%nat (if leap then 366%nat else 365%nat)) = true.
Proof. destruct leap; vm_compute; reflexivity. Qed.
Lemma month_day_ok (leap : bool) yday : 0 ≤ yday < (if leap then 366 else 365) → yday_ok leap yday = true.
Proof.
  intros H. pose proof (month_day_check leap) as Hc. rewrite forallb_forall in Hc.
  specialize (Hc (Z.to_nat yday)). rewrite Z2Nat.id in Hc by lia. apply Hc. apply in_seq. destruct leap; lia.
Qed.

(** The number of days into which absDate splits, and the year it finds. *)
Lemma split_days d : ∃ a b c e r,
  d = 146097 * a + 36524 * b + 1461 * c + 365 * e + r ∧
  0 ≤ b ≤ 3 ∧ 0 ≤ c ≤ 24 ∧ 0 ≤ e ≤ 3 ∧ 0 ≤ r ≤ 365 ∧ (r = 365 → e = 3 ∧ (c < 24 ∨ b = 3)) ∧
  absDate d = (let year := 400 * a + 100 * b + 4 * c + e - 292277022399 in
               let '(month, day) := month_day (isLeap year) r in (year, month, day)).
Proof.
  unfold absDate.
  set (a := d / 146097). set (d1 := d - 146097 * a). set (b0 := d1 / 36524). set (b := b0 - b0 / 4).
  set (d2 := d1 - 36524 * b). set (c := d2 / 1461). set (d3 := d2 - 1461 * c).
  set (e0 := d3 / 365). set (e := e0 - e0 / 4). set (r := d3 - 365 * e).
  assert (0 ≤ d1 < 146097) as H1 by (unfold d1, a; pose proof (Z.div_mod d 146097); pose proof (Z.mod_pos_bound d 146097); lia).
  assert (0 ≤ b0 ≤ 4 ∧ 36524 * b0 ≤ d1 < 36524 * b0 + 36524) as H2.
  { unfold b0. pose proof (Z.div_mod d1 36524). pose proof (Z.mod_pos_bound d1 36524). lia. }
  assert ((b0 < 4 ∧ b = b0) ∨ (b0 = 4 ∧ b = 3)) as H3.
  { unfold b. assert (b0 = 0 ∨ b0 = 1 ∨ b0 = 2 ∨ b0 = 3 ∨ b0 = 4) as H by lia.
    destruct H as [->|[->|[->|[->| ->]]]]; vm_compute; intuition congruence. }
  assert (0 ≤ d2 ∧ d2 ≤ 36524 ∧ (b < 3 → d2 < 36524)) as H4 by (unfold d2; lia).
  assert (0 ≤ c ∧ 1461 * c ≤ d2 < 1461 * c + 1461) as H5.
  { unfold c. pose proof (Z.div_mod d2 1461). pose proof (Z.mod_pos_bound d2 1461). lia. }
  assert (0 ≤ d3 < 1461 ∧ (c = 24 → d3 ≤ 1460 ∧ (b < 3 → d3 < 1460))) as H6 by (unfold d3; lia).
  assert (0 ≤ e0 ≤ 4 ∧ 365 * e0 ≤ d3 < 365 * e0 + 365) as H7.
  { unfold e0. pose proof (Z.div_mod d3 365). pose proof (Z.mod_pos_bound d3 365). lia. }
  assert ((e0 < 4 ∧ e = e0) ∨ (e0 = 4 ∧ e = 3)) as H8.
  { unfold e. assert (e0 = 0 ∨ e0 = 1 ∨ e0 = 2 ∨ e0 = 3 ∨ e0 = 4) as H by lia.
    destruct H as [->|[->|[->|[->| ->]]]]; vm_compute; intuition congruence. }
  exists a, b, c, e, r. split_and!; try (unfold r, d3, d2, d1 in *; lia).
  replace (400 * a + 100 * b + 4 * c + e + -292277022399) with (400 * a + 100 * b + 4 * c + e - 292277022399) by lia.
  done.
Qed.
Lemma absDate_ok d : let '(y, m, dd) := absDate d in
  1 ≤ m ≤ 12 ∧ 1 ≤ dd ≤ days_in_month (isLeap y) m ∧
  days_before_year y + days_before_month (isLeap y) (Z.to_nat m) + dd - 1 = d - 106751990353932.
Proof.
  destruct (split_days d) as (a & b & c & e & r & Hd & Hb & Hc & He & Hr & Hl & ->).
  cbv zeta. set (y := 400 * a + 100 * b + 4 * c + e - 292277022399).
  assert (days_before_year y = 146097 * (a - 730692556) + 36524 * b + 1461 * c + 365 * e) as Hy.
  { unfold days_before_year, y.
    replace (400 * a + 100 * b + 4 * c + e - 292277022399 - 1) with (400 * (a - 730692556) + 100 * b + 4 * c + e) by lia.
    set (a' := a - 730692556).
    assert ((400 * a' + 100 * b + 4 * c + e) / 4 = 100 * a' + 25 * b + c) as -> by (symmetry; apply (Z.div_unique_pos _ _ _ e); lia).
    assert ((400 * a' + 100 * b + 4 * c + e) / 100 = 4 * a' + b) as -> by (symmetry; apply (Z.div_unique_pos _ _ _ (4 * c + e)); lia).
    assert ((400 * a' + 100 * b + 4 * c + e) / 400 = a') as -> by (symmetry; apply (Z.div_unique_pos _ _ _ (100 * b + 4 * c + e)); lia).
    lia. }
  assert (0 ≤ r < (if isLeap y then 366 else 365)) as Hr'.
  { destruct (isLeap y) eqn:El; [lia|]. assert (r ≠ 365); [|lia]. intros Hr5. destruct (Hl Hr5) as [-> Hcb].
    assert (isLeap y = true) as Ht; [|congruence]. unfold isLeap.
    rewrite andb_true_iff, orb_true_iff, negb_true_iff, !Z.eqb_eq, Z.eqb_neq. unfold y.
    replace (400 * a + 100 * b + 4 * c + 3 - 292277022399) with (4 * (100 * (a - 730692556) + 25 * b + c + 1)) by lia.
    split; [by rewrite Z.mul_comm, Z.mod_mul|].
    destruct (decide (c = 24)) as [->|Hc24].
    - right. destruct Hcb as [?| ->]; [lia|].
      replace (4 * (100 * (a - 730692556) + 25 * 3 + 24 + 1)) with ((a - 730692556 + 1) * 400) by lia. by rewrite Z.mod_mul.
    - left. intros H0. apply Z.mod_divide in H0 as [k Hk]; lia. }
  pose proof (month_day_ok (isLeap y) r Hr') as Hm. unfold yday_ok in Hm.
  destruct (month_day (isLeap y) r) as [m dd]. rewrite !andb_true_iff, !Z.leb_le, Z.eqb_eq in Hm.
  split_and!; try lia.
Qed.

(** *** Decimal text *)
Lemma digit_value_digit n : 0 ≤ n ≤ 9 → digit_value (digit n) = n.
Proof.
  intros H. unfold digit_value, digit. rewrite N_ascii_embedding; lia.
Qed.
Lemma appendInt_length w : ∀ n, length (appendInt n w) = w.
Proof. induction w as [|w IH]; intros n; simpl; [done|]. rewrite app_length, IH. simpl. lia. Qed.
Lemma decimal_value_snoc l c : decimal_value (l ++ [c]) = 10 * decimal_value l + digit_value c.
Proof.
  induction l as [|x l IH]; simpl.
  - lia.
  - rewrite IH, app_length. simpl. rewrite Nat.add_1_r, Nat2Z.inj_succ, Z.pow_succ_r by lia. lia.
Qed.
Lemma appendInt_text w : ∀ n, 0 ≤ n < 10 ^ Z.of_nat w → decimal_text w n (appendInt n w).
Proof.
  intros n Hn. split; [apply appendInt_length|]. revert n Hn.
  induction w as [|w IH]; intros n Hn; simpl appendInt.
  - simpl in *. split; [constructor|lia].
  - rewrite Nat2Z.inj_succ, Z.pow_succ_r in Hn by lia.
    pose proof (Z.div_mod n 10 ltac:(lia)). pose proof (Z.mod_pos_bound n 10 ltac:(lia)).
    destruct (IH (n / 10)) as [IH1 IH2]; [lia|]. split.
    + apply Forall_app. split; [done|]. repeat constructor; rewrite digit_value_digit; lia.
    + rewrite decimal_value_snoc, IH2, digit_value_digit; lia.
Qed.
Lemma digit_value_inj c c' : digit_value c = digit_value c' → c = c'.
Proof.
  unfold digit_value. intros H. assert (N_of_ascii c = N_of_ascii c') as H' by lia.
  rewrite <- (ascii_N_embedding c), <- (ascii_N_embedding c'). by rewrite H'.
Qed.
Lemma decimal_value_bound l : Forall (λ c, 0 ≤ digit_value c ≤ 9) l → 0 ≤ decimal_value l < 10 ^ Z.of_nat (length l).
Proof.
  induction 1 as [|c l Hc Hl IH]; cbn [decimal_value length]; [simpl; lia|].
  rewrite Nat2Z.inj_succ, Z.pow_succ_r by lia. nia.
Qed.
Lemma trim_zeros_spec l : Forall (λ c, 0 ≤ digit_value c ≤ 9) l →
  ∃ k, l = trim_zeros l ++ repeat "0"%char k ∧
       (trim_zeros l = [] ∨ ∃ r c, trim_zeros l = r ++ [c] ∧ c ≠ "0"%char).
Proof.
  induction 1 as [|c l Hc Hl (k & IH & IHl)]; [exists O; auto|]. cbn [trim_zeros].
  destruct (trim_zeros l) as [|c' l'] eqn:E.
  - destruct (Ascii.eqb_spec c "0"%char) as [->|Hn].
    + exists (S k). simpl in *. split; [by rewrite IH at 1|by left].
    + exists k. simpl in *. split; [by rewrite IH at 1|]. right. by exists [], c.
  - exists k. split; [simpl; by rewrite IH at 1|]. right. destruct IHl as [?|(r & c2 & Hr & Hc2)]; [done|].
    exists (c :: r), c2. simpl. by rewrite Hr.
Qed.
Lemma decimal_value_zeros l k : decimal_value (l ++ repeat "0"%char k) = decimal_value l * 10 ^ Z.of_nat k.
Proof.
  revert l. induction k as [|k IH]; intros l.
  - simpl repeat. rewrite app_nil_r. lia.
  - simpl repeat. replace (l ++ "0"%char :: repeat "0"%char k) with ((l ++ ["0"%char]) ++ repeat "0"%char k) by (by rewrite <- app_assoc).
    rewrite IH, decimal_value_snoc. change (digit_value "0"%char) with 0. rewrite Nat2Z.inj_succ, Z.pow_succ_r by lia. lia.
Qed.
Lemma formatNano_text ns : 0 ≤ ns < 1000000000 → fraction_text ns (formatNano ns).
Proof.
  intros H. destruct (appendInt_text 9 ns) as (Hlen & Hdig & Hval); [change (10 ^ Z.of_nat 9) with 1000000000; lia|].
  unfold formatNano. destruct (trim_zeros_spec _ Hdig) as (k & Heq & Hl). set (t := trim_zeros (appendInt ns 9)) in *. clearbody t.
  assert (length t + k = 9)%nat as Hlk.
  { rewrite <- Hlen. by rewrite Heq, app_length, repeat_length. }
  rewrite Heq, decimal_value_zeros in Hval.
  destruct Hl as [Ht|(r & c & Ht & Hc)].
  - left. rewrite Ht in *. simpl in Hval. split; [lia|done].
  - right. exists (length t), (decimal_value t), t.
    assert (Forall (λ c, 0 ≤ digit_value c ≤ 9) t) as Hdt by (rewrite Heq in Hdig; by apply Forall_app in Hdig as [? _]).
    split_and!.
    + rewrite Ht, app_length. simpl. lia.
    + lia.
    + rewrite Ht. destruct r; done.
    + split_and!; done.
    + rewrite Ht, decimal_value_snoc. rewrite Z.add_comm, Z.mul_comm, Z.mod_add by lia.
      rewrite Ht in Hdt. apply Forall_app in Hdt as [_ Hdc]. inversion Hdc as [|? ? Hcv _]; subst.
      rewrite Z.mod_small by lia. intros Hz. apply Hc. apply digit_value_inj. rewrite Hz. done.
    + rewrite <- Hval. replace (9 - length t)%nat with k by lia. done.
Qed.

(** *** The moment of a timestamp *)
Definition moment_of (t : Z) : moment :=
  let abs := t / 1000000000 + 9223372028715321600 in
  let '(year, month, day) := absDate (abs / 86400) in
  let clock := abs mod 86400 in
  mkMoment year month day (clock / 3600) (clock mod 3600 / 60) (clock mod 60) (t mod 1000000000).
Lemma moment_of_ok t : moment_ok (moment_of t) ∧ unix_nanos (moment_of t) = t.
Proof.
  unfold moment_of. set (abs := t / 1000000000 + 9223372028715321600).
  pose proof (absDate_ok (abs / 86400)) as Hd. destruct (absDate (abs / 86400)) as [[y m] d].
  destruct Hd as (Hm & Hdd & Hdays).
  set (clock := abs mod 86400).
  pose proof (Z.div_mod t 1000000000 ltac:(lia)). pose proof (Z.mod_pos_bound t 1000000000 ltac:(lia)).
  pose proof (Z.div_mod abs 86400 ltac:(lia)). pose proof (Z.mod_pos_bound abs 86400 ltac:(lia)). fold clock in H1, H2.
  pose proof (Z.div_mod clock 3600 ltac:(lia)). pose proof (Z.mod_pos_bound clock 3600 ltac:(lia)).
  pose proof (Z.div_mod (clock mod 3600) 60 ltac:(lia)). pose proof (Z.mod_pos_bound (clock mod 3600) 60 ltac:(lia)).
  assert (clock mod 60 = clock mod 3600 mod 60) as Hmm.
  { rewrite <- (Z.mod_unique_pos clock 60 (60 * (clock / 3600) + clock mod 3600 / 60) (clock mod 3600 mod 60)); lia. }
  split.
  - unfold moment_ok. cbn [mo_year mo_month mo_day mo_hour mo_min mo_sec mo_nano]. split_and!; lia.
  - unfold unix_nanos, moment_days. cbn [mo_year mo_month mo_day mo_hour mo_min mo_sec mo_nano].
    change (days_before_year 1970 + days_before_month (isLeap 1970) (Z.to_nat 1) + 1 - 1) with 719162. 
    rewrite Hmm. unfold abs in *. lia.
Qed.
Lemma epoch_days : moment_days (mkMoment 1970 1 1 0 0 0 0) = 719162.
Proof. vm_compute. reflexivity. Qed.
Lemma day_of_year_bound leap mo d : 1 ≤ mo ≤ 12 → 1 ≤ d ≤ days_in_month leap mo →
  0 ≤ days_before_month leap (Z.to_nat mo) + d - 1 < 366.
Proof.
  intros Hm Hd.
  assert (forallb (λ n, (0 <=? days_before_month leap n) && (days_before_month leap n + days_in_month leap (Z.of_nat n) <=? 366))
            (seq 1%nat 12%nat) = true) as Hc by (destruct leap; vm_compute; reflexivity).
  rewrite forallb_forall in Hc. specialize (Hc (Z.to_nat mo)). rewrite Z2Nat.id in Hc by lia.
  rewrite andb_true_iff, !Z.leb_le in Hc. destruct Hc as [H1 H2]; [apply in_seq; lia|]. lia.
Qed.
Lemma year_arith t y q4 q100 q400 r4 r100 r400 dm d h mi s n :
  - 9223372036854775808 ≤ t < 9223372036854775808 → 0 ≤ dm + d - 1 < 366 → 0 ≤ h < 24 → 0 ≤ mi < 60 → 0 ≤ s < 60 →
  0 ≤ n < 1000000000 → y - 1 = 4 * q4 + r4 → 0 ≤ r4 < 4 → y - 1 = 100 * q100 + r100 → 0 ≤ r100 < 100 →
  y - 1 = 400 * q400 + r400 → 0 ≤ r400 < 400 →
  (((365 * (y - 1) + q4 - q100 + q400 + dm + d - 1 - 719162) * 24 + h) * 60 + mi) * 60 * 1000000000 + s * 1000000000 + n = t →
  0 ≤ y < 10000.
Proof. intros. lia. Qed.
Lemma year_bound_gen m t : moment_ok m → unix_nanos m = t → - 9223372036854775808 ≤ t < 9223372036854775808 →
  0 ≤ mo_year m < 10000.
Proof.
  intros (Hm & Hd & Hh & Hmi & Hs & Hn) Hu Ht.
  pose proof (day_of_year_bound _ _ _ Hm Hd) as Hy.
  unfold unix_nanos in Hu. rewrite epoch_days in Hu. unfold moment_days, days_before_year in Hu.
  eapply (year_arith t (mo_year m) ((mo_year m - 1) / 4) ((mo_year m - 1) / 100) ((mo_year m - 1) / 400)
            ((mo_year m - 1) mod 4) ((mo_year m - 1) mod 100) ((mo_year m - 1) mod 400)
            (days_before_month (isLeap (mo_year m)) (Z.to_nat (mo_month m))) (mo_day m) (mo_hour m) (mo_min m) (mo_sec m) (mo_nano m));
    try assumption; try (apply Z.div_mod; discriminate); try (apply Z.mod_pos_bound; reflexivity).
Qed.
Lemma int64_range t : - 2 ^ 63 ≤ t < 2 ^ 63 → - 9223372036854775808 ≤ t < 9223372036854775808.
Proof. intros [H1 H2]. split; [exact H1|exact H2]. Qed.
Lemma year_bound t : - 2 ^ 63 ≤ t < 2 ^ 63 → 0 ≤ mo_year (moment_of t) < 10000.
Proof.
  intros Ht. destruct (moment_of_ok t) as [Hok Hu]. exact (year_bound_gen _ _ Hok Hu (int64_range _ Ht)).
Qed.
Definition moment_text (m : moment) : string :=
  string_of_list_ascii
    (appendInt (mo_year m) 4 ++ ["-"%char] ++ appendInt (mo_month m) 2 ++ ["-"%char] ++ appendInt (mo_day m) 2 ++ ["T"%char] ++
     appendInt (mo_hour m) 2 ++ [":"%char] ++ appendInt (mo_min m) 2 ++ [":"%char] ++
     appendInt (mo_sec m) 2 ++ formatNano (mo_nano m) ++ ["Z"%char]).
Lemma time_text_moment t : time_text t = moment_text (moment_of t).
Proof. unfold time_text, moment_of. cbv zeta. destruct (absDate _) as [[y m] d]. reflexivity. Qed.
Lemma moment_text_reads m : moment_ok m → 0 ≤ mo_year m < 10000 → rfc3339 m (moment_text m).
Proof.
  intros (Hm & Hd & Hh & Hmi & Hs & Hn) Hy.
  assert (mo_day m < 100) as Hd2.
  { unfold days_in_month in Hd. repeat match type of Hd with context [if ?b then _ else _] => destruct b end; lia. }
  unfold rfc3339, moment_text. eexists _, _, _, _, _, _, _. split; [reflexivity|].
  split_and!; try (apply appendInt_text; change (10 ^ Z.of_nat 4) with 10000; change (10 ^ Z.of_nat 2) with 100; lia).
  apply formatNano_text. lia.
Qed.
Lemma time_text_reads t : - 2 ^ 63 ≤ t < 2 ^ 63 → rfc3339 (moment_of t) (time_text t).
Proof.
  intros Ht. rewrite time_text_moment. apply moment_text_reads; [apply moment_of_ok|by apply year_bound].
Qed.

(** *** The text determines the moment *)
Lemma app_inj_length {A} (a b c d : list A) : length a = length c → a ++ b = c ++ d → a = c ∧ b = d.
Proof.
  revert c. induction a as [|x a IH]; intros [|y c] Hl H; simpl in *; try done. simplify_eq.
  destruct (IH c) as [-> ->]; [lia|done|done].
Qed.
Lemma decimal_text_app_inj w n n' a b a' b' :
  decimal_text w n a → decimal_text w n' a' → a ++ b = a' ++ b' → n = n' ∧ b = b'.
Proof.
  intros (Hl & _ & Hv) (Hl' & _ & Hv') H. apply app_inj_length in H as [-> ->]; [|lia]. split; [lia|done].
Qed.
Lemma fraction_inj ns ns' l l' : fraction_text ns l → fraction_text ns' l' → l ++ ["Z"%char] = l' ++ ["Z"%char] → ns = ns'.
Proof.
  intros H H' Heq. apply app_inv_tail in Heq. subst l'.
  destruct H as [[-> ->]|(k & f & ds & Hk & -> & (Hl & _ & Hv) & _ & ->)],
           H' as [[-> H']|(k' & f' & ds' & Hk' & H' & (Hl' & _ & Hv') & _ & ->)]; try done.
  injection H' as ->. congruence.
Qed.
Lemma rfc3339_inj m m' s : rfc3339 m s → rfc3339 m' s → m = m'.
Proof.
  intros (y & mo & d & h & mi & se & fr & -> & H1 & H2 & H3 & H4 & H5 & H6 & H7)
         (y' & mo' & d' & h' & mi' & se' & fr' & Heq & H1' & H2' & H3' & H4' & H5' & H6' & H7').
  apply (f_equal list_ascii_of_string) in Heq. rewrite !list_ascii_of_string_of_list_ascii in Heq.
  pose proof (decimal_text_app_inj _ _ _ _ _ _ _ H1 H1' Heq) as [E1 Heq1]. simpl in Heq1. simplify_eq Heq1. clear Heq1. intros Heq1.
  pose proof (decimal_text_app_inj _ _ _ _ _ _ _ H2 H2' Heq1) as [E2 Heq2]. simpl in Heq2. simplify_eq Heq2. clear Heq2. intros Heq2.
  pose proof (decimal_text_app_inj _ _ _ _ _ _ _ H3 H3' Heq2) as [E3 Heq3]. simpl in Heq3. simplify_eq Heq3. clear Heq3. intros Heq3.
  pose proof (decimal_text_app_inj _ _ _ _ _ _ _ H4 H4' Heq3) as [E4 Heq4]. simpl in Heq4. simplify_eq Heq4. clear Heq4. intros Heq4.
  pose proof (decimal_text_app_inj _ _ _ _ _ _ _ H5 H5' Heq4) as [E5 Heq5]. simpl in Heq5. simplify_eq Heq5. clear Heq5. intros Heq5.
  pose proof (decimal_text_app_inj _ _ _ _ _ _ _ H6 H6' Heq5) as [E6 Heq6].
  pose proof (fraction_inj _ _ _ _ H7 H7' Heq6) as E7. destruct m, m'. simpl in *. congruence.
Qed.
