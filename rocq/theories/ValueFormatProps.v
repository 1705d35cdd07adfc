(** * C73: how fmt prints a value.

    [formatValue f h op]: fmt.Sprintf("%v", op) for a *Value in memory [h]; [f] bounds the
    depth of the recursion.  [rep h op t fp]: in [h] the value [op] shows the tree [t].
    [printed t] (ValueFormat.v): the text for [t]. *)
From Verif Require Import ValueFormat.
Local Open Scope Z_scope.

(** Every value that does not contain itself is printed, also nil values and items, as its
    type, a colon and its contents. *)
Theorem C73_printed : ∀ h op t fp, rep h op t fp → ∃ n, ∀ f, (n ≤ f)%nat → formatValue f h op = Ok (printed t).
Proof. intros h op t fp. apply (format_rep h). Qed.
Print Assumptions C73_printed.

(** Numbers are numerals ([numeral], JsonGrammar.v: sign, digits, fraction, exponent) of
    their value: integers, times and unsigned integers of [z] itself, floats of decimals
    that round to the double [b]. *)
Theorem C73_numbers : (∀ z, numeral (print_int z) (z <? 0) (Z.abs z) 0) ∧
  ∀ b, finite64 b = true → (∃ neg m e, numeral (print_float b) neg m e) ∧ ∀ neg m e, numeral (print_float b) neg m e → double_for neg m e b.
Proof.
  split.
  - intros z. rewrite print_int_render. pose proof (parse_render_num (z <? 0) (Z.abs z) 0 [] ltac:(lia) I) as P.
    destruct (parse_num_sound _ _ _ P) as (raw & neg' & m' & e' & E & Ej & Hn). rewrite !app_nil_r in E. subst raw. by injection Ej as <- <- <-.
  - intros b Hf. destruct (print_float_reads b Hf) as (neg & m & e & P & D). destruct (parse_num_sound _ _ _ P) as (raw & neg' & m' & e' & E & Ej & Hn). rewrite app_nil_r in E. subst raw.
    injection Ej as <- <- <-. split; [eauto|]. intros neg' m' e' Hn'. pose proof (parse_num_complete _ neg' m' e' [] Hn' I) as P'. rewrite app_nil_r in P'.
    rewrite P in P'. injection P' as <- <- <-. apply double_for_iff; [|exact D].
    destruct Hn as (int & frac & fds & exp & x & _ & Hi & Hfr & _ & -> & _). apply frac_digits in Hfr as [Df _].
    destruct (decimal_split int fds Df) as [-> B]. pose proof (pow10_pos (Z.of_nat (length fds)) ltac:(lia)).
    apply int_part_spec in Hi as (_ & A & _). apply all_digits_value, decimal_value_bound in A. rewrite <-decimal_eq in A. nia.
Qed.
Print Assumptions C73_numbers.

(** Neither array nor object nor NaN. *)
Definition single (t : tree) : Prop :=
  match t with
  | TArr _ | TObj _ | TNilArr | TNilObj => False
  | TFloat b => finite64 b = true ∨ b = 0x7FF0000000000000 ∨ b = 0xFFF0000000000000 (* the infinities *)
  | _ => True
  end.
Lemma print_float_inj b b' : single (TFloat b) → single (TFloat b') → print_float b = print_float b' → b = b'.
Proof.
  assert (∀ b, finite64 b = true → parse_num (print_float b) ≠ None) as Hn.
  { intros c Hc. destruct (print_float_reads c Hc) as (? & ? & ? & -> & _). done. }
  assert (parse_num (print_float 0x7FF0000000000000) = None) as N1 by (vm_compute; reflexivity).
  assert (parse_num (print_float 0xFFF0000000000000) = None) as N2 by (vm_compute; reflexivity).
  intros [F|[->| ->]] [F'|[->| ->]] E; try done.
  - destruct (print_float_reads b F) as (neg & m & e & P & D). destruct (print_float_reads b' F') as (neg' & m' & e' & P' & D'). rewrite E, P' in P. injection P as -> -> ->. congruence.
  - destruct (Hn b F). by rewrite E.
  - destruct (Hn b F). by rewrite E.
  - destruct (Hn b' F'). by rewrite <- E.
  - destruct (Hn b' F'). by rewrite <- E.
Qed.
Lemma text_inj s s' : text s = text s' → s = s'.
Proof. unfold text. intros E. rewrite <- (list_string s), <- (list_string s'). by rewrite E. Qed.
(** Two such values that are printed alike are equal, in type and in contents. *)
Theorem C73_distinct : ∀ h op t fp h' op' t' fp' n, rep h op t fp → rep h' op' t' fp' → single t → single t' →
  (∀ f, (n ≤ f)%nat → formatValue f h op = formatValue f h' op') → t = t'.
Proof.
  intros h op t fp h' op' t' fp' n R R' S S' E. destruct (C73_printed h op t fp R) as (n1 & E1). destruct (C73_printed h' op' t' fp' R') as (n2 & E2).
  specialize (E (Nat.max n (Nat.max n1 n2)) ltac:(lia)). rewrite E1, E2 in E by lia. apply (f_equal (λ o, match o with Ok x => x | Panic => [] end)) in E. cbv beta iota in E. clear -S S' E.
  destruct t, t'; try done; try (cbn in E; (discriminate E || (destruct b; discriminate E) || (destruct b0; discriminate E))).
  - f_equal. destruct b, b0; try done.
  - f_equal. apply print_int_inj. exact (app_inv_head _ _ _ E).
  - f_equal. apply print_int_inj. exact (app_inv_head _ _ _ E).
  - f_equal. apply print_float_inj; [exact S|exact S'|]. exact (app_inv_head _ _ _ E).
  - f_equal. apply text_inj. exact (app_inv_head _ _ _ E).
  - f_equal. apply print_int_inj. exact (app_inv_head _ _ _ E).
Qed.
Print Assumptions C73_distinct.
(** Arrays are not: one item may look like two. *)
Theorem C73_arrays_refuted : ∃ h p p' fp fp' s, rep h (Some p) (TArr [TStr "a string_type:b"]) fp ∧ rep h (Some p') (TArr [TStr "a"; TStr "b"]) fp' ∧
  ∀ f, (3 ≤ f)%nat → formatValue f h (Some p) = Ok s ∧ formatValue f h (Some p') = Ok s.
Proof.
  set (h := mkHeap [mkString "a string_type:b"; mkString "a"; mkString "b"; mkArray [Some 0%nat]; mkArray [Some 1%nat; Some 2%nat]] []).
  exists h, 3%nat, 4%nat, [LArr 3], [LArr 4]. eexists. split.
  { eapply (rep_arr h 3 (mkArray [Some 0%nat]) [Some 0%nat] [TStr "a string_type:b"] []); [done|done|done|done|].
    apply (rep_list_cons _ (Some 0%nat) [] (TStr "a string_type:b") [] [] []); [|constructor]. by eapply rep_scalar. }
  split.
  { eapply (rep_arr h 4 (mkArray [Some 1%nat; Some 2%nat]) [Some 1%nat; Some 2%nat] [TStr "a"; TStr "b"] []); [done|done|done|done|].
    apply (rep_list_cons _ (Some 1%nat) [Some 2%nat] (TStr "a") [TStr "b"] [] []); [by eapply rep_scalar|].
    apply (rep_list_cons _ (Some 2%nat) [] (TStr "b") [] [] []); [by eapply rep_scalar|constructor]. }
  intros f Hf. destruct f as [|[|[|f]]]; [lia|lia|lia|]. split; vm_compute; reflexivity.
Qed.
Print Assumptions C73_arrays_refuted.
(** An array that contains itself is never printed to the end: the recursion has no bound. *)
Theorem C73_cycle_refuted : ∃ h p, hvals h !! p = Some (mkArray [Some p]) ∧ ∀ f, formatValue f h (Some p) = Panic.
Proof.
  exists (mkHeap [mkArray [Some 0%nat]] []), 0%nat. split; [done|]. intros f. induction f as [|f IH]; [done|].
  cbn [formatValue]. cbn. by rewrite IH.
Qed.
Print Assumptions C73_cycle_refuted.

(** An example: an object in an array; floats; a nil item. *)
Example C73_ex :
  string_of_list_ascii (printed (TArr [TObj [("a", TInt (-5)); ("b", TFloat 0x3FF8000000000000)]; TNil; TFloat 0x412E848000000000; TTime 7])) =
  "array_type:[object_type:map[a:integer_type:-5 b:float_type:1.5] <nil> float_type:1e+06 timestamp_type:7]".
Proof. vm_compute. reflexivity. Qed.
Example C73_hyps : ∃ h op fp, rep h op (TFloat 0x3FF8000000000000) fp ∧ single (TFloat 0x3FF8000000000000).
Proof. exists (mkHeap [mkFloat 0x3FF8000000000000] []), (Some 0%nat), []. split; [by eapply rep_scalar|by left]. Qed.
