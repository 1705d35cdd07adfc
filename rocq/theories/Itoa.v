(** * Decimal text of numbers: strconv.Itoa. *)
From Verif Require Export GoBase.
From Coq Require Import NArith Lia ZifyN ZifyNat ZifyBool.

Definition digit_char (d : N) : ascii := ascii_of_N (48 + d).
Definition is_digit (c : ascii) : bool := (N.leb 48 (N_of_ascii c) && N.leb (N_of_ascii c) 57)%N.
Definition digit_val (c : ascii) : N := (N_of_ascii c - 48)%N.

(** Decimal digits of [n], least significant first; at least one. *)
Fixpoint le_digits (fuel : nat) (n : N) : list N :=
  match fuel with
  | 0 => []
  | S f => (n mod 10)%N :: (if (n <? 10)%N then [] else le_digits f (n / 10)%N)
  end.

Definition decimal (n : N) : list N := rev (le_digits (S (N.size_nat n)) n).

Definition text_of_digits (l : list N) : string := string_of_list_ascii (map digit_char l).

(** strconv.Itoa on a non-negative int; strconv.FormatUint(n, 10). *)
Definition itoa (n : N) : string := text_of_digits (decimal n).

Definition digits_val (l : list N) : N := fold_left (λ a d, 10 * a + d)%N l 0%N.
Definition text_val (s : string) : N := digits_val (map digit_val (list_ascii_of_string s)).

Lemma le_digits_lt f n : Forall (λ d, (d < 10)%N) (le_digits f n).
Proof.
  revert n. induction f as [|f IH]; intros n; simpl; [constructor|].
  constructor; [apply N.mod_lt; lia|]. destruct (n <? 10)%N; [constructor|apply IH].
Qed.

Lemma decimal_lt n : Forall (λ d, (d < 10)%N) (decimal n).
Proof. apply Forall_rev, le_digits_lt. Qed.

Lemma le_digits_val f n : (n < 10 ^ N.of_nat f)%N →
  fold_right (λ d a, 10 * a + d)%N 0%N (le_digits f n) = n.
Proof.
  revert n. induction f as [|f IH]; intros n Hn.
  - simpl. change (10 ^ N.of_nat 0)%N with 1%N in Hn. lia.
  - cbn [le_digits fold_right]. rewrite Nat2N.inj_succ, N.pow_succ_r' in Hn.
    destruct (N.ltb_spec n 10) as [Hlt|Hge].
    + cbn [fold_right]. rewrite N.mod_small by done. lia.
    + rewrite IH.
      * pose proof (N.div_mod n 10). lia.
      * apply N.div_lt_upper_bound; lia.
Qed.

Lemma size_bound n : (n < 10 ^ N.of_nat (S (N.size_nat n)))%N.
Proof.
  assert (n < 2 ^ N.of_nat (N.size_nat n))%N as H.
  { destruct n as [|p]; [done|]. simpl N.size_nat. induction p as [p IH|p IH|]; cbn [Pos.size_nat].
    - rewrite Nat2N.inj_succ, N.pow_succ_r'. lia.
    - rewrite Nat2N.inj_succ, N.pow_succ_r'. lia.
    - done. }
  rewrite Nat2N.inj_succ, N.pow_succ_r'.
  assert (2 ^ N.of_nat (N.size_nat n) ≤ 10 ^ N.of_nat (N.size_nat n))%N by (apply N.pow_le_mono_l; lia).
  lia.
Qed.

Lemma decimal_val n : digits_val (decimal n) = n.
Proof.
  unfold digits_val, decimal. rewrite <-fold_left_rev_right, rev_involutive.
  apply le_digits_val, size_bound.
Qed.

Lemma N_ascii_small n : (n < 256)%N → N_of_ascii (ascii_of_N n) = n.
Proof. apply N_ascii_embedding. Qed.

Lemma digit_char_val d : (d < 10)%N → digit_val (digit_char d) = d.
Proof. intros H. unfold digit_val, digit_char. rewrite N_ascii_small by lia. lia. Qed.

Lemma digit_char_digit d : (d < 10)%N → is_digit (digit_char d) = true.
Proof.
  intros H. unfold is_digit, digit_char. rewrite N_ascii_small by lia. lia.
Qed.

Lemma list_of_text l : list_ascii_of_string (text_of_digits l) = map digit_char l.
Proof. apply list_ascii_of_string_of_list_ascii. Qed.

Lemma text_of_digits_val l : Forall (λ d, (d < 10)%N) l → text_val (text_of_digits l) = digits_val l.
Proof.
  intros H. unfold text_val. rewrite list_of_text, map_map. f_equal.
  induction H as [|d l Hd _ IH]; simpl; [done|]. by rewrite digit_char_val, IH.
Qed.

Lemma text_of_digits_digits l : Forall (λ d, (d < 10)%N) l →
  Forall (λ c, is_digit c = true) (list_ascii_of_string (text_of_digits l)).
Proof.
  intros H. rewrite list_of_text. apply Forall_map. eapply Forall_impl; [exact H|].
  intros d. apply digit_char_digit.
Qed.

Lemma itoa_val n : text_val (itoa n) = n.
Proof. unfold itoa. rewrite text_of_digits_val by apply decimal_lt. apply decimal_val. Qed.

Lemma itoa_inj n m : itoa n = itoa m → n = m.
Proof. intros H. by rewrite <-(itoa_val n), H, itoa_val. Qed.

Lemma itoa_digits n : Forall (λ c, is_digit c = true) (list_ascii_of_string (itoa n)).
Proof. apply text_of_digits_digits, decimal_lt. Qed.

(** Splitting a text after its leading digits. *)
Lemma digits_split s1 s2 c1 c2 t1 t2 :
  Forall (λ c, is_digit c = true) (list_ascii_of_string s1) →
  Forall (λ c, is_digit c = true) (list_ascii_of_string s2) →
  is_digit c1 = false → is_digit c2 = false →
  s1 +:+ String c1 t1 = s2 +:+ String c2 t2 → s1 = s2 ∧ c1 = c2 ∧ t1 = t2.
Proof.
  revert s2. induction s1 as [|a s1 IH]; intros [|b s2] H1 H2 Hc1 Hc2 Heq; simpl in *.
  - by injection Heq as -> ->.
  - injection Heq as -> ->. apply Forall_cons in H2 as [H2 _]. congruence.
  - injection Heq as -> _. apply Forall_cons in H1 as [H1 _]. congruence.
  - injection Heq as -> Heq. apply Forall_cons in H1 as [_ H1], H2 as [_ H2].
    destruct (IH s2 H1 H2 Hc1 Hc2 Heq) as (-> & -> & ->). done.
Qed.

Example itoa_ex : itoa 0 = "0" ∧ itoa 1204 = "1204".
Proof. split; reflexivity. Qed.
