(** * How fmt prints a value: pkg/event/value.go:99-104, and what it uses of package fmt
    (Go 1.17). *)
From Verif Require Export FloatText.
From Coq Require Import Lia.
Local Open Scope Z_scope.

(** ** The model *)
(** value.go:28-55 ValueType.String. *)
Definition type_name (t : N) : string :=
  if N.eqb t NullType then "null_type" else if N.eqb t ArrayType then "array_type" else if N.eqb t BoolType then "bool_type"
  else if N.eqb t FloatType then "float_type" else if N.eqb t IntegerType then "integer_type" else if N.eqb t ObjectType then "object_type"
  else if N.eqb t StringType then "string_type" else if N.eqb t TimestampType then "timestamp_type"
  else if N.eqb t UnsignedIntegerType then "unsigned_integer_type" else "unknown_type".
(** value.go:103, fmt's %v of an int64 or uint64; time.go:36-38, Time.String. *)
Definition print_int (z : Z) : list ascii := (if z <? 0 then ["-"%char] else []) ++ digits (Z.abs z).
(** value.go:103, fmt's %v of a float64: strconv.AppendFloat(x, 'g', -1, 64), which uses %e
    if the exponent is below -4 or at least 6. *)
Definition print_float (b : Z) : list ascii :=
  if finite64 b then
    let '(ds, dp) := decimal_slice (f64_mag b) in
    (if f64_neg b then ["-"%char] else []) ++ (if (dp - 1 <? -4) || (6 <=? dp - 1) then fmtE ds dp else fmtF ds dp)
  else if f64_mag b =? 2047 * 2 ^ 52 then (if f64_neg b then ["-"; "I"; "n"; "f"]%char else ["+"; "I"; "n"; "f"]%char)
  else ["N"; "a"; "N"]%char.
Definition text (s : string) : list ascii := list_ascii_of_string s.
(** value.go:103, fmt's %v of slices and maps: items separated by spaces, map keys sorted. *)
Definition spaced : list (list ascii) → list ascii := JsonText.join " "%char.
(** Sprintf("%v", v) for a *Value: handleMethods calls Format (value.go:99-104), here and for
    the items of slices and maps.  For a nil pointer Format panics before it writes, and fmt
    prints <nil> in its place.  [Panic]: [fuel] is used up. *)
Fixpoint formatValue (fuel : nat) (h : heap) (op : option ptr) : Outcome (list ascii) :=
  match fuel with
  | O => Panic
  | S f =>
      match op with
      | None => Ok (text "<nil>")
      | Some p =>
          obind (deref h (Some p)) (λ v,
            obind
              (if N.eqb (v_type v) ArrayType then
                 match v_arr v with
                 | None => Ok (text "[]")
                 | Some l => obind (omapM (formatValue f h) l) (λ ts, Ok (text "[" ++ spaced ts ++ text "]"))
                 end
               else if N.eqb (v_type v) BoolType then Ok (text (if v_bool v then "true" else "false"))
               else if N.eqb (v_type v) FloatType then Ok (print_float (v_float v))
               else if N.eqb (v_type v) IntegerType then Ok (print_int (v_int v))
               else if N.eqb (v_type v) ObjectType then
                 match v_obj v with
                 | None => Ok (text "map[]")
                 | Some r =>
                     obind (omapM (λ kv : string * option ptr, obind (formatValue f h kv.2) (λ t, Ok (text kv.1 ++ text ":" ++ t))) (map_of h (Some r)))
                       (λ ts, Ok (text "map[" ++ spaced ts ++ text "]"))
                 end
               else if N.eqb (v_type v) StringType then Ok (text (v_str v))
               else if N.eqb (v_type v) TimestampType then Ok (print_int (v_ts v))
               else if N.eqb (v_type v) UnsignedIntegerType then Ok (print_int (v_uint v))
               else Ok (text "<nil>"))
              (λ s, Ok (text (type_name (v_type v)) ++ text ":" ++ s)))
      end
  end.

(** ** Specification *)
(** Texts one after the other with a space between each and the next. *)
Fixpoint words (l : list (list ascii)) : list ascii :=
  match l with
  | [] => []
  | [t] => t
  | t :: l' => t ++ " "%char :: words l'
  end.
(** What is printed for a value that shows the tree [t]. *)
Fixpoint printed (t : tree) : list ascii :=
  match t with
  | TNil => text "<nil>"
  | TNull => text "null_type:<nil>"
  | TBool b => text (if b then "bool_type:true" else "bool_type:false")
  | TInt z => text "integer_type:" ++ print_int z
  | TUint z => text "unsigned_integer_type:" ++ print_int z
  | TFloat b => text "float_type:" ++ print_float b
  | TStr s => text "string_type:" ++ text s
  | TTime z => text "timestamp_type:" ++ print_int z
  | TNilArr => text "array_type:[]"
  | TArr l => text "array_type:[" ++ words (map printed l) ++ text "]"
  | TNilObj => text "object_type:map[]"
  | TObj m => text "object_type:map[" ++ words (map (λ kv : string * tree, let '(k, t) := kv in text k ++ text ":" ++ printed t) m) ++ text "]"
  end.

(** ** Proofs *)
Lemma spaced_words l : spaced l = words l.
Proof. unfold spaced. induction l as [|t [|t' l] IH]; [done|done|]. transitivity (t ++ " "%char :: words (t' :: l)); [|done]. by rewrite <- IH. Qed.
Lemma format_rep h :
  (∀ op t fp, rep h op t fp → ∃ n, ∀ f, (n ≤ f)%nat → formatValue f h op = Ok (printed t)) ∧
  (∀ ops ts fps, rep_list h ops ts fps → ∃ n, ∀ f, (n ≤ f)%nat → omapM (formatValue f h) ops = Ok (map printed ts)) ∧
  (∀ gm m fps, rep_assoc h gm m fps → ∃ n, ∀ f, (n ≤ f)%nat →
     omapM (λ kv : string * option ptr, obind (formatValue f h kv.2) (λ t, Ok (text kv.1 ++ text ":" ++ t))) gm =
       Ok (map (λ kv : string * tree, let '(k, t) := kv in text k ++ text ":" ++ printed t) m)).
Proof.
  apply rep_mutind.
  - exists 1%nat. intros [|f] Hf; [lia|]. done.
  - intros p v t Hp Hs. exists 1%nat. intros [|f] Hf; [lia|]. cbn [formatValue deref]. rewrite Hp. cbn [obind].
    unfold scalar_tree in Hs. destruct (v_obj v); [done|].
    destruct (N.eqb_spec (v_type v) NullType) as [->|]; [by simplify_eq|].
    destruct (N.eqb_spec (v_type v) BoolType) as [->|]; [simplify_eq; by destruct (v_bool v)|].
    destruct (N.eqb_spec (v_type v) FloatType) as [->|]; [by simplify_eq|].
    destruct (N.eqb_spec (v_type v) IntegerType) as [->|]; [by simplify_eq|].
    destruct (N.eqb_spec (v_type v) StringType) as [->|]; [by simplify_eq|].
    destruct (N.eqb_spec (v_type v) TimestampType) as [->|]; [by simplify_eq|].
    destruct (N.eqb_spec (v_type v) UnsignedIntegerType) as [->|]; [by simplify_eq|]. done.
  - intros p v Hp Ht Ho Ha. exists 1%nat. intros [|f] Hf; [lia|]. cbn [formatValue deref]. rewrite Hp. cbn [obind].
    rewrite Ht. simpl. rewrite Ha. done.
  - intros p v ops ts fps Hp Ht Ho Ha Hr (n & IH). exists (S n). intros [|f] Hf; [lia|].
    cbn [formatValue deref]. rewrite Hp. cbn [obind]. rewrite Ht, N.eqb_refl, Ha. rewrite IH by lia. cbn [obind]. by rewrite spaced_words.
  - intros p v Hp Ht Ho. exists 1%nat. intros [|f] Hf; [lia|]. cbn [formatValue deref]. rewrite Hp. cbn [obind].
    rewrite Ht. simpl. rewrite Ho. done.
  - intros p v r gm m fps Hp Ht Ho Hr Hs Ha (n & IH). exists (S n). intros [|f] Hf; [lia|].
    cbn [formatValue deref]. rewrite Hp. cbn [obind]. rewrite Ht, Ho.
    change (N.eqb ObjectType ArrayType) with false. change (N.eqb ObjectType BoolType) with false. change (N.eqb ObjectType FloatType) with false.
    change (N.eqb ObjectType IntegerType) with false. change (N.eqb ObjectType ObjectType) with true. cbv iota. cbn [map_of]. rewrite Hr.
    rewrite IH by lia. cbn [obind]. by rewrite spaced_words.
  - exists 0%nat. done.
  - intros op ops t ts fp fps Hr (n1 & IH1) Hl (n2 & IH2). exists (Nat.max n1 n2). intros f Hf.
    simpl. rewrite IH1 by lia. simpl. rewrite IH2 by lia. done.
  - exists 0%nat. done.
  - intros k op gm t m fp fps Hr (n1 & IH1) Hl (n2 & IH2). exists (Nat.max n1 n2). intros f Hf.
    simpl. rewrite IH1 by lia. simpl. rewrite IH2 by lia. done.
Qed.

(** *** Numbers are printed differently *)
Lemma print_int_render z : print_int z = render_num (z <? 0) (Z.abs z) 0.
Proof. done. Qed.
Lemma print_int_inj z z' : print_int z = print_int z' → z = z'.
Proof.
  rewrite !print_int_render. intros E. pose proof (parse_render_num (z <? 0) (Z.abs z) 0 [] ltac:(lia) I) as P. pose proof (parse_render_num (z' <? 0) (Z.abs z') 0 [] ltac:(lia) I) as P'.
  rewrite E, P' in P. injection P as P1 P2. destruct (Z.ltb_spec z 0), (Z.ltb_spec z' 0); try done; lia.
Qed.
Lemma parse_exponent a : 0 ≤ a < 1000 → ∃ xs, fmt_exponent a = xs ∧ xs ≠ [] ∧ all_digits xs ∧ decimal_value xs = a.
Proof.
  intros Ha. eexists. split; [reflexivity|]. destruct (exponent_digits a Ha) as [-> _]. destruct (digits_spec a ltac:(lia)) as (D1 & D2 & D3 & _).
  destruct (a <? 10); cbn [app]; [|done]. split; [done|]. split; [by apply List.Forall_cons|]. exact (eq_trans (decimal_value_lead 1 (digits a)) D3).
Qed.
Lemma parse_fmtE (neg : bool) m e : 0 < m → Z.abs (ndig m - 1 + e) < 1000 →
  parse_num ((if neg then ["-"%char] else []) ++ fmtE (digits m) (ndig m + e)) = Some (JNum neg m e, []).
Proof.
  intros Hm Hx. destruct (digits_spec m ltac:(lia)) as (D1 & D2 & D3 & D4). pose proof (digits_length m Hm) as Hlen.
  unfold fmtE. rewrite Hlen. destruct (digits m) as [|d ds] eqn:Ed; [done|]. cbn [length Nat.eqb].
  apply Forall_cons in D2 as [Hd D2]. replace (ndig m + e - 1) with (ndig m - 1 + e) by lia. set (x := ndig m - 1 + e) in *.
  destruct (parse_exponent (Z.abs x) ltac:(lia)) as (xs & -> & X1 & X2 & X3).
  set (et := "e"%char :: (if x <? 0 then "-"%char else "+"%char) :: xs).
  assert (parse_exp et = Some (x, [])) as Pe.
  { unfold et. cbn [parse_exp]. change (Ascii.eqb "e"%char "e"%char || _) with true. cbv iota. destruct (Z.ltb_spec x 0) as [Hn|Hn]; simpl Ascii.eqb; cbv iota;
      (rewrite <- (app_nil_r xs), span_digits_app by done); (destruct xs as [|x0 xs0]; [done|]); rewrite ?app_nil_r, X3; do 2 f_equal; lia. }
  set (ft := if 0 <? ndig m - 1 then "."%char :: skipn 1 (d :: ds) else []). 
  assert (no_digit (ft ++ et)) as Nd by (unfold ft; destruct (0 <? _); done).
  assert (parse_frac (ft ++ et) = Some (ds, et)) as Pf.
  { unfold ft. change (skipn 1 (d :: ds)) with ds. cbn [length] in Hlen. destruct ds as [|d2 ds].
    - destruct (Z.ltb_spec 0 (ndig m - 1)); [cbn [length] in Hlen; lia|]. done.
    - destruct (Z.ltb_spec 0 (ndig m - 1)); [|cbn [length] in Hlen; lia]. apply (parse_frac_some (d2 :: ds) et); done. }
  assert (d ≠ "0"%char) as Hd0 by exact (digits_head m d ds Hm Ed).
  assert (parse_int (d :: ft ++ et) = Some ([d], ft ++ et)) as Pi.
  { apply (parse_int_digits [d]); [done|by apply List.Forall_cons|by intros t [= -> <-]|done]. }
  change (d :: ft ++ "e"%char :: _ :: xs) with (d :: ft ++ et). pose proof (digit_not_minus d Hd) as Hdm.
  assert (parse_num ((if neg then ["-"%char] else []) ++ d :: ft ++ et) = match parse_int (d :: ft ++ et) with None => None | Some (is, l2) => match parse_frac l2 with None => None | Some (fs, l3) => match parse_exp l3 with None => None | Some (x, l4) => Some (JNum neg (decimal_value (is ++ fs)) (x - Z.of_nat (length fs)), l4) end end end) as ->.
  { unfold parse_num. destruct neg; cbn [app]; [done|]. destruct (Ascii.eqb_spec d "-"%char) as [->|]; [done|]. done. }
  rewrite Pi, Pf, Pe. cbn [app]. rewrite D3. cbn [length] in Hlen. do 3 f_equal. unfold x. lia.
Qed.
Lemma print_float_reads b : finite64 b = true → ∃ neg m e, parse_num (print_float b) = Some (JNum neg m e, []) ∧ f64_of_dec neg m e = Some b.
Proof.
  intros Hf. unfold print_float. rewrite Hf. pose proof (mag_magnitude b Hf) as M. unfold decimal_slice.
  destruct (Z.eqb_spec (f64_mag b) 0) as [E0|E0].
  { exists (f64_neg b), 0, 0. split; [by destruct (f64_neg b)|].
    apply finite64_spec in Hf as [Hf _]. rewrite <- (sign_join b Hf) at 2. rewrite E0. apply f64_of_dec_neg. vm_compute. reflexivity. }
  assert (0 < f64_mag b) as Hb by (unfold magnitude in M; lia).
  destruct (shortest_reads _ M Hb) as (m & e & Es & Hm & Hd & H18). rewrite Es. rewrite (digits_length m Hm). pose proof (sci_range _ _ _ M Hb Es) as Hx.
  apply double_for_iff in Hd; [|lia]. apply (f64_of_dec_neg (f64_neg b)) in Hd. apply finite64_spec in Hf as [Hf _]. rewrite (sign_join b Hf) in Hd.
  destruct (digits_spec m ltac:(lia)) as (Hne & _). pose proof (digits_length m Hm) as Hlen.
  destruct ((ndig m + e - 1 <? -4) || (6 <=? ndig m + e - 1)) eqn:Er.
  { exists (f64_neg b), m, e. split; [|exact Hd]. apply parse_fmtE; done. }
  apply orb_false_iff in Er as [Er1 Er2]. apply Z.ltb_ge in Er1. apply Z.leb_gt in Er2.
  destruct (Z.leb_spec 0 e) as [He|He].
  - exists (f64_neg b), (m * 10 ^ e), 0. split.
    + rewrite <- Hlen, fmtF_whole by done. rewrite <- digits_shift by done.
      pose proof (pow10_pos e He). pose proof (parse_render_num (f64_neg b) (m * 10 ^ e) 0 [] ltac:(nia) I) as P. rewrite app_nil_r in P. exact P.
    + rewrite <-Hd. unfold f64_of_dec. change (0 <=? 0) with true. destruct (Z.leb_spec 0 e); [|lia]. cbv iota. change (10 ^ 0) with 1. by rewrite Z.mul_1_r.
  - exists (f64_neg b), m, e. split; [|exact Hd].
    pose proof (parse_render_num (f64_neg b) m e [] ltac:(lia) I) as P. rewrite app_nil_r in P. rewrite <- P. f_equal. unfold render_num. rewrite Hlen. f_equal.
    destruct (Z.eqb_spec e 0); [lia|]. destruct (Z.ltb_spec e 0); [|lia]. destruct (Z.leb_spec (-6) (ndig m - 1 + e)); [|lia]. cbn [andb].
    destruct (Z.ltb_spec (- e) (ndig m)).
    + rewrite fmtF_point by lia. done.
    + rewrite fmtF_below by (done || lia). cbn [app]. do 4 f_equal. lia.
Qed.
