(** * Property theorems for written floats: C64.

    [floatEncoder b]: what json.Marshal writes for the double with bits [b], None if it
    refuses.  [f64_mag b], [f64_neg b]: its bits without the sign, and the sign.
    [double_for false m e b] (Nearest.v): b is the double nearest to m * 10^e.
    [shortest_for] (Shortest.v), [float_text] (FloatText.v): the specification. *)
From Verif Require Import FloatText ProtobufProps.
Local Open Scope Z_scope.

(** Every finite double has a shortest decimal, only one, and with at most 17 digits. *)
Theorem C64_shortest : ∀ b, magnitude b → 0 < b →
  ∃ m e, 0 < m < 10 ^ 17 ∧ shortest_for b m e ∧
    ∀ m' e', 0 ≤ m' → shortest_for b m' e' → m' = m ∧ e' = e.
Proof.
  intros b M Hb. destruct (shortest_reads b M Hb) as (m & e & Es & Hm & Hd & H18).
  destruct (shortest_pos b M Hb) as [_ Hs]. rewrite Es in Hs. cbn [fst snd] in Hs.
  exists m, e. split; [split; [done|]|split; [done|]].
  - destruct (ndig_spec m Hm) as (_ & _ & L). apply (Z.lt_le_trans _ _ _ L). apply Z.pow_le_mono_r; lia.
  - intros m' e' Hm' Hs'. apply (shortest_unique b m e m' e'); try done. lia.
Qed.
Print Assumptions C64_shortest.

(** It is what is written, plain if its first digit stands for at least 10^-6 and less
    than 10^21, with an exponent otherwise; [float_text] admits no other text. *)
Theorem C64_text : ∀ b, finite64 b = true →
  ∃ m e t, 0 ≤ m ∧ shortest_for (f64_mag b) m e ∧ (f64_mag b = 0 → m = 0 ∧ e = 0) ∧
    floatEncoder b = Some t ∧ float_text (f64_neg b) m e t ∧
    ∀ t', float_text (f64_neg b) m e t' → t' = t.
Proof.
  intros b Hf. pose proof (mag_magnitude b Hf) as M. destruct (floatEncoder_text b Hf) as (t & Et & Ht).
  destruct (shortest_ok _ M) as [Hm Hs].
  exists (shortest (f64_mag b)).1, (shortest (f64_mag b)).2, t.
  split; [done|]. split; [done|]. split; [by intros ->|]. split; [done|]. split; [done|].
  intros t' Ht'. by apply (float_text_unique (f64_neg b) (shortest (f64_mag b)).1 (shortest (f64_mag b)).2).
Qed.
Print Assumptions C64_text.

(** NaN and the infinities are refused, nothing else. *)
Theorem C64_refused : ∀ b, floatEncoder b = None ↔ finite64 b = false.
Proof.
  intros b. unfold floatEncoder. destruct (finite64 b); [|done]. split; [|done].
  destruct (decimal_slice _). by destruct (_ && _).
Qed.
Print Assumptions C64_refused.

(** Whatever JSON reader reads the text as the grammar says and rounds to the nearest
    double gets the same double: bit for bit, the sign of -0 too. *)
Theorem C64_reads_back : ∀ b t, floatEncoder b = Some t →
  (∃ neg m e, numeral t neg m e) ∧ ∀ neg m e, numeral t neg m e → double_for neg m e b.
Proof.
  intros b t Et. destruct (finite64 b) eqn:Hf.
  2: { unfold floatEncoder in Et. by rewrite Hf in Et. }
  rewrite (floatEncoder_render b Hf) in Et. pose proof (go_float_ok b Hf) as H.
  destruct (go_float b) as [[neg m] e]. destruct H as [Hm Hd]. injection Et as Et.
  pose proof (parse_render_num neg m e [] Hm I) as P. rewrite app_nil_r, Et in P. split.
  - destruct (parse_num_sound _ _ _ P) as (raw & neg' & m' & e' & E & _ & Hn). rewrite app_nil_r in E. subst raw. eauto.
  - intros neg' m' e' Hn. pose proof (parse_num_complete t neg' m' e' [] Hn I) as P'. rewrite app_nil_r in P'.
    rewrite P in P'. injection P' as <- <- <-. by apply double_for_iff.
Qed.
Print Assumptions C64_reads_back.

Lemma double_for_unique neg m e b b' : 0 ≤ m → double_for neg m e b → double_for neg m e b' → b = b'.
Proof. intros Hm H H'. apply double_for_iff in H, H'; congruence. Qed.
Lemma numeral_nonneg t neg m e : numeral t neg m e → 0 ≤ m.
Proof.
  intros (int & frac & fds & exp & x & _ & Hi & Hf & _ & -> & _). apply frac_digits in Hf as [Df _].
  destruct (decimal_split int fds Df) as [-> B]. pose proof (pow10_pos (Z.of_nat (length fds)) ltac:(lia)).
  apply int_part_spec in Hi as (_ & A & _). apply all_digits_value, decimal_value_bound in A. rewrite <-decimal_eq in A. nia.
Qed.
(** Different doubles are written differently. *)
Theorem C64_distinct : ∀ b b' t, floatEncoder b = Some t → floatEncoder b' = Some t → b = b'.
Proof.
  intros b b' t E E'. destruct (C64_reads_back b t E) as [(neg & m & e & Hn) H].
  destruct (C64_reads_back b' t E') as [_ H']. apply (double_for_unique neg m e); auto. by apply (numeral_nonneg t neg m e).
Qed.
Print Assumptions C64_distinct.

(** ** In an event *)
(** The theorems of C42, C44, C45, C53, C56 and C58 hold of every way to write floats
    that satisfies [float_format]; this is such a way. *)
Theorem C64_format : float_format go_float.
Proof. apply go_float_ok. Qed.
Print Assumptions C64_format.

(** MarshalJSON of a Float value writes exactly that text. *)
Theorem C64_value : ∀ f h p v, deref h (Some p) = Ok v → v_type v = FloatType →
  jbind (valueJSON go_float (S f) h (Some p)) (λ j, jret (render j)) = Ok (floatEncoder (v_float v)).
Proof.
  intros f h p v Hd Ht. cbn [valueJSON]. rewrite Hd. unfold GoBase.obind, Protobuf.obind. rewrite Ht.
  change (N.eqb FloatType ArrayType) with false. change (N.eqb FloatType BoolType) with false.
  change (N.eqb FloatType FloatType) with true. cbv iota.
  destruct (finite64 (v_float v)) eqn:Hf.
  - rewrite (floatEncoder_render _ Hf). unfold jfloat. by destruct (go_float (v_float v)) as [[neg m] e].
  - by rewrite (proj2 (C64_refused _) Hf).
Qed.
Print Assumptions C64_value.

(** An event with one Float field. *)
Theorem C64_event : ∀ h e b fp, ev_rep h e [("x", TFloat b)] fp →
  ∃ n, ∀ f, (n ≤ f)%nat →
    MarshalText go_float f h e =
      Ok (match floatEncoder b with Some t => Some (chars "{""x"":" ++ t ++ chars "}") | None => None end).
Proof.
  intros h e b fp Hev. destruct (MarshalEvent_rep go_float h e _ fp Hev) as (n & Hm). exists n. intros f Hfu.
  unfold MarshalText. rewrite Hm by done. destruct (fields e) as [r|] eqn:Er.
  2: { unfold ev_rep in Hev. rewrite Er in Hev. by destruct Hev. }
  cbn [assoc_json osequence map json_of_tree]. destruct (finite64 b) eqn:Hf.
  - rewrite (floatEncoder_render _ Hf). unfold jfloat. by destruct (go_float b) as [[neg m] e'].
  - by rewrite (proj2 (C64_refused _) Hf).
Qed.
Print Assumptions C64_event.

(** ** Cases *)
Definition written (b : Z) : option string := option_map string_of_list_ascii (floatEncoder b).
Example C64_ex_texts :
  written 0x3FF8000000000000 = Some "1.5" ∧
  written 0x4059000000000000 = Some "100" ∧
  written 0x3FB999999999999A = Some "0.1" ∧
  written 0x8000000000000000 = Some "-0" ∧
  written 0x444B1AE4D6E2EF50 = Some "1e+21" ∧
  written 0x7FF0000000000000 = None.
Proof. split_and!; vm_compute; reflexivity. Qed.
(** Two decimals with 17 digits are equally close to 1125899906842624.25 ... *)
Example C64_ex_tie : let b := 0x4310000000000001 in
  f64_units b * 100 = 112589990684262425 * 2 ^ 1074 ∧
  double_for false 11258999068426242 (-1) b ∧ double_for false 11258999068426243 (-1) b ∧
  written b = Some "1125899906842624.2".
Proof.
  cbv zeta. split; [vm_compute; reflexivity|].
  split; [apply double_for_iff; [lia|vm_compute; reflexivity]|].
  split; [apply double_for_iff; [lia|vm_compute; reflexivity]|]. vm_compute. reflexivity.
Qed.
Example C64_ex_event : ∃ h e fp, ev_rep h e [("x", TFloat 0x3FB999999999999A)] fp.
Proof.
  destruct (built [OPut "x" (TFloat 0x3FB999999999999A)] [("x", TFloat 0x3FB999999999999A)] [mkSRes None None])
    as (h & e & outs & fp & _ & Hr); [repeat constructor|vm_compute; reflexivity|]. eauto.
Qed.
