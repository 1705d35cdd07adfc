(** * JSON text: what encoding/json writes and reads (Go 1.17).

    Standard library code.  The writer is appendString, strconv.AppendInt, the float
    format rule of floatEncoder and the compact array and object layout; the reader is
    the grammar of scanner.go with unquote.  It is modelled, rather than assumed, so
    that the properties of events can be stated about bytes. *)
From Verif Require Export Json.
From Coq Require Import Lia.
Local Open Scope Z_scope.

(** ** Writing *)
Definition q : ascii := """"%char.
Definition bs : ascii := "\"%char.
Definition hexdigit (n : Z) : ascii := if n <? 10 then zb (48 + n) else zb (87 + n).
Definition u4 (n : Z) : list ascii :=
  [bs; "u"%char; hexdigit (n / 4096); hexdigit (n / 256 mod 16); hexdigit (n / 16 mod 16); hexdigit (n mod 16)].
(** encode.go appendString, an ASCII byte: quote and backslash are escaped, \n \r \t have
    short forms, other control characters and < > & (htmlSafeSet) are \u00XX. *)
Definition esc1 (c : ascii) : list ascii :=
  if Ascii.eqb c q || Ascii.eqb c bs then [bs; c]
  else if bz c =? 10 then [bs; "n"%char]
  else if bz c =? 13 then [bs; "r"%char]
  else if bz c =? 9 then [bs; "t"%char]
  else if (bz c <? 32) || Ascii.eqb c "<"%char || Ascii.eqb c ">"%char || Ascii.eqb c "&"%char then u4 (bz c)
  else [c].
(** encode.go appendString: invalid UTF-8 is written \ufffd, U+2028 and U+2029 are escaped. *)
Fixpoint esc_bytes (l : list ascii) : list ascii :=
  match l with
  | [] => []
  | b0 :: l1 =>
      if utf8_1 b0 then esc1 b0 ++ esc_bytes l1
      else
        let bad := u4 0xFFFD ++ esc_bytes l1 in
        match l1 with
        | [] => bad
        | b1 :: l2 =>
            if utf8_2 b0 b1 then b0 :: b1 :: esc_bytes l2
            else
              match l2 with
              | [] => bad
              | b2 :: l3 =>
                  if utf8_3 b0 b1 b2 then
                    (if (bz b0 =? 0xE2) && (bz b1 =? 0x80) && ((bz b2 =? 0xA8) || (bz b2 =? 0xA9))
                     then u4 (0x2028 + (bz b2 - 0xA8)) else [b0; b1; b2]) ++ esc_bytes l3
                  else
                    match l3 with
                    | [] => bad
                    | b3 :: l4 => if utf8_4 b0 b1 b2 b3 then b0 :: b1 :: b2 :: b3 :: esc_bytes l4 else bad
                    end
              end
        end
  end.
Definition render_string (s : string) : list ascii := q :: esc_bytes (list_ascii_of_string s) ++ [q].

(** Decimal digits without leading zeros. *)
Fixpoint strip_zeros (l : list ascii) : list ascii :=
  match l with
  | [] => []
  | c :: l' => match l' with [] => l | _ => if Ascii.eqb c "0"%char then strip_zeros l' else l end
  end.
Definition digits (n : Z) : list ascii := strip_zeros (appendInt n (S (Z.to_nat (Z.log2 n)))).
(** encode.go floatEncoder and strconv: m * 10^e is written without exponent from 1e-6
    up when e <= 0, else as d.ddde+xx (xx without leading zeros). *)
Definition render_exp (e : Z) : list ascii :=
  "e"%char :: (if e <? 0 then ["-"%char] else ["+"%char]) ++ digits (Z.abs e).
Definition render_num (neg : bool) (m e : Z) : list ascii :=
  let ds := digits m in
  let n := Z.of_nat (length ds) in
  let x := n - 1 + e in
  (if neg then ["-"%char] else []) ++
  (if e =? 0 then ds
   else if (e <? 0) && (-6 <=? x) then
     if - e <? n then firstn (Z.to_nat (n + e)) ds ++ ["."%char] ++ skipn (Z.to_nat (n + e)) ds
     else ["0"%char; "."%char] ++ repeat "0"%char (Z.to_nat (- e - n)) ++ ds
   else
     match ds with
     | d :: ds' => d :: (match ds' with [] => [] | _ => "."%char :: ds' end) ++ render_exp x
     | [] => []
     end).

Definition join (sep : ascii) : list (list ascii) → list ascii :=
  fix go l := match l with [] => [] | [x] => x | x :: l' => x ++ sep :: go l' end.
(** encode.go arrayEncoder, mapEncoder. *)
Fixpoint render (j : json) : list ascii :=
  match j with
  | JNull => ["n"; "u"; "l"; "l"]%char
  | JBool true => ["t"; "r"; "u"; "e"]%char
  | JBool false => ["f"; "a"; "l"; "s"; "e"]%char
  | JNum neg m e => render_num neg m e
  | JStr s => render_string s
  | JArr l => "["%char :: join ","%char (map render l) ++ ["]"%char]
  | JObj m =>
      "{"%char :: join ","%char (map (λ kv : string * json, let '(k, j) := kv in render_string k ++ ":"%char :: render j) m)
        ++ ["}"%char]
  end.

(** ** Reading *)
Definition is_ws (c : ascii) : bool := (bz c =? 32) || (bz c =? 9) || (bz c =? 10) || (bz c =? 13).
Fixpoint skip_ws (l : list ascii) : list ascii :=
  match l with c :: l' => if is_ws c then skip_ws l' else l | [] => [] end.
Definition is_digit (c : ascii) : bool := inr 48 57 c.
Fixpoint span_digits (l : list ascii) : list ascii * list ascii :=
  match l with
  | c :: l' => if is_digit c then let '(d, r) := span_digits l' in (c :: d, r) else ([], l)
  | [] => ([], [])
  end.
Definition hexval (c : ascii) : option Z :=
  if inr 48 57 c then Some (bz c - 48) else if inr 97 102 c then Some (bz c - 87)
  else if inr 65 70 c then Some (bz c - 55) else None.
Definition hex4 (a b c d : ascii) : option Z :=
  match hexval a, hexval b, hexval c, hexval d with
  | Some a, Some b, Some c, Some d => Some (a * 4096 + b * 256 + c * 16 + d)
  | _, _, _, _ => None
  end.
Definition simple_escape (c : ascii) : option ascii :=
  if Ascii.eqb c q then Some q else if Ascii.eqb c bs then Some bs else if Ascii.eqb c "/"%char then Some "/"%char
  else if Ascii.eqb c "b"%char then Some (zb 8) else if Ascii.eqb c "f"%char then Some (zb 12)
  else if Ascii.eqb c "n"%char then Some (zb 10) else if Ascii.eqb c "r"%char then Some (zb 13)
  else if Ascii.eqb c "t"%char then Some (zb 9) else None.
Definition pcons (p : list ascii) (r : option (list ascii * list ascii)) : option (list ascii * list ascii) :=
  match r with Some (s, rest) => Some (p ++ s, rest) | None => None end.
(** scanner.go stateInString and decode.go unquote, after the opening quote: the string
    and the rest of the text. *)
Fixpoint parse_str (l : list ascii) : option (list ascii * list ascii) :=
  match l with
  | [] => None
  | c :: l1 =>
      if Ascii.eqb c q then Some ([], l1)
      else if Ascii.eqb c bs then
        match l1 with
        | [] => None
        | d :: l2 =>
            match simple_escape d with
            | Some x => pcons [x] (parse_str l2)
            | None =>
                if Ascii.eqb d "u"%char then
                  match l2 with
                  | h1 :: h2 :: h3 :: h4 :: l3 =>
                      match hex4 h1 h2 h3 h4 with
                      | None => None
                      | Some r =>
                          if (0xD800 <=? r) && (r <? 0xE000) then
                            let bad := pcons runeError (parse_str l3) in
                            match l3 with
                            | c1 :: c2 :: g1 :: g2 :: g3 :: g4 :: l4 =>
                                if Ascii.eqb c1 bs && Ascii.eqb c2 "u"%char then
                                  match hex4 g1 g2 g3 g4 with
                                  | Some r2 =>
                                      if (r <? 0xDC00) && (0xDC00 <=? r2) && (r2 <? 0xE000) then
                                        pcons (utf8_encode ((r - 0xD800) * 1024 + (r2 - 0xDC00) + 0x10000)) (parse_str l4)
                                      else bad
                                  | None => bad
                                  end
                                else bad
                            | _ => bad
                            end
                          else pcons (utf8_encode r) (parse_str l3)
                      end
                  | _ => None
                  end
                else None
            end
        end
      else if bz c <? 32 then None
      else if utf8_1 c then pcons [c] (parse_str l1)
      else
        let bad := pcons runeError (parse_str l1) in
        match l1 with
        | [] => bad
        | b1 :: l2 =>
            if utf8_2 c b1 then pcons [c; b1] (parse_str l2)
            else
              match l2 with
              | [] => bad
              | b2 :: l3 =>
                  if utf8_3 c b1 b2 then pcons [c; b1; b2] (parse_str l3)
                  else
                    match l3 with
                    | [] => bad
                    | b3 :: l4 => if utf8_4 c b1 b2 b3 then pcons [c; b1; b2; b3] (parse_str l4) else bad
                    end
              end
        end
  end.
(** scanner.go stateNeg, state0, state1, stateDot, stateE: a number literal. *)
Definition parse_exp (l : list ascii) : option (Z * list ascii) :=
  match l with
  | c :: l1 =>
      if Ascii.eqb c "e"%char || Ascii.eqb c "E"%char then
        let '(sgn, l2) := match l1 with
                          | d :: l2 => if Ascii.eqb d "-"%char then (-1, l2) else if Ascii.eqb d "+"%char then (1, l2) else (1, l1)
                          | [] => (1, [])
                          end in
        match span_digits l2 with
        | ([], _) => None
        | (ds, r) => Some (sgn * decimal_value ds, r)
        end
      else Some (0, l)
  | [] => Some (0, [])
  end.
Definition parse_frac (l : list ascii) : option (list ascii * list ascii) :=
  match l with
  | c :: l1 => if Ascii.eqb c "."%char then match span_digits l1 with ([], _) => None | (ds, r) => Some (ds, r) end else Some ([], l)
  | [] => Some ([], [])
  end.
Definition parse_int (l : list ascii) : option (list ascii * list ascii) :=
  match l with
  | c :: l1 => if Ascii.eqb c "0"%char then Some ([c], l1)
               else match span_digits l with ([], _) => None | (ds, r) => Some (ds, r) end
  | [] => None
  end.
Definition parse_num (l : list ascii) : option (json * list ascii) :=
  let '(neg, l1) := match l with c :: l1 => if Ascii.eqb c "-"%char then (true, l1) else (false, l) | [] => (false, []) end in
  match parse_int l1 with
  | None => None
  | Some (ds, l2) =>
      match parse_frac l2 with
      | None => None
      | Some (fs, l3) =>
          match parse_exp l3 with
          | None => None
          | Some (x, l4) => Some (JNum neg (decimal_value (ds ++ fs)) (x - Z.of_nat (length fs)), l4)
          end
      end
  end.
Fixpoint expect (w l : list ascii) : option (list ascii) :=
  match w, l with
  | [], _ => Some l
  | c :: w', d :: l' => if Ascii.eqb c d then expect w' l' else None
  | _, [] => None
  end.
Definition parse_lit (w l : list ascii) (j : json) : option (json * list ascii) :=
  match expect w l with Some r => Some (j, r) | None => None end.
(** scanner.go: values, array elements and object members, the text left over.  [n]
    bounds the number of calls; see [parse]. *)
Fixpoint pvalue (n : nat) (l : list ascii) {struct n} : option (json * list ascii) :=
  match n with
  | O => None
  | S n =>
      match skip_ws l with
      | [] => None
      | c :: r =>
          if Ascii.eqb c q then
            match parse_str r with Some (s, r') => Some (JStr (string_of_list_ascii s), r') | None => None end
          else if Ascii.eqb c "["%char then
            match skip_ws r with
            | [] => None
            | c' :: r' =>
                if Ascii.eqb c' "]"%char then Some (JArr [], r')
                else match pelems n r with Some (js, r'') => Some (JArr js, r'') | None => None end
            end
          else if Ascii.eqb c "{"%char then
            match skip_ws r with
            | [] => None
            | c' :: r' =>
                if Ascii.eqb c' "}"%char then Some (JObj [], r')
                else match pmembers n r with Some (ms, r'') => Some (JObj ms, r'') | None => None end
            end
          else if Ascii.eqb c "n"%char then parse_lit ["u"; "l"; "l"]%char r JNull
          else if Ascii.eqb c "t"%char then parse_lit ["r"; "u"; "e"]%char r (JBool true)
          else if Ascii.eqb c "f"%char then parse_lit ["a"; "l"; "s"; "e"]%char r (JBool false)
          else parse_num (c :: r)
      end
  end
with pelems (n : nat) (l : list ascii) {struct n} : option (list json * list ascii) :=
  match n with
  | O => None
  | S n =>
      match pvalue n l with
      | None => None
      | Some (j, r) =>
          match skip_ws r with
          | [] => None
          | c :: r' =>
              if Ascii.eqb c ","%char then match pelems n r' with Some (js, r'') => Some (j :: js, r'') | None => None end
              else if Ascii.eqb c "]"%char then Some ([j], r')
              else None
          end
      end
  end
with pmembers (n : nat) (l : list ascii) {struct n} : option (list (string * json) * list ascii) :=
  match n with
  | O => None
  | S n =>
      match skip_ws l with
      | [] => None
      | c0 :: l0 =>
          if Ascii.eqb c0 q then
            match parse_str l0 with
            | None => None
            | Some (s, r0) =>
                match skip_ws r0 with
                | [] => None
                | c1 :: r1 =>
                    if Ascii.eqb c1 ":"%char then
                      match pvalue n r1 with
                      | None => None
                      | Some (j, r) =>
                          match skip_ws r with
                          | [] => None
                          | c :: r' =>
                              if Ascii.eqb c ","%char then
                                match pmembers n r' with
                                | Some (ms, r'') => Some ((string_of_list_ascii s, j) :: ms, r'')
                                | None => None
                                end
                              else if Ascii.eqb c "}"%char then Some ([(string_of_list_ascii s, j)], r')
                              else None
                          end
                      end
                    else None
                end
            end
          else None
      end
  end.
(** A whole JSON text, surrounded by white space only. *)
Definition parse (l : list ascii) : option json :=
  match pvalue (S (2 * length l)) l with
  | Some (j, r) => match skip_ws r with [] => Some j | _ => None end
  | None => None
  end.

(** ** The text written is read back *)
(** Mantissas are not negative. *)
Fixpoint jwf (j : json) : Prop :=
  match j with
  | JNum _ m _ => 0 ≤ m
  | JArr l => (fix go l := match l with [] => True | j :: l' => jwf j ∧ go l' end) l
  | JObj m => (fix go (m : list (string * json)) := match m with [] => True | (_, j) :: m' => jwf j ∧ go m' end) m
  | _ => True
  end.
Lemma jwf_arr l : jwf (JArr l) ↔ Forall jwf l.
Proof. simpl. induction l as [|t l IH]; [by split|]. rewrite Forall_cons, IH. done. Qed.
Lemma jwf_obj m : jwf (JObj m) ↔ Forall (λ kv, jwf kv.2) m.
Proof. simpl. induction m as [|[k t] m IH]; [by split|]. rewrite Forall_cons, IH. done. Qed.

(** *** Strings *)
Lemma hexval_hexdigit n : 0 ≤ n < 16 → hexval (hexdigit n) = Some n.
Proof.
  intros H. unfold hexval, hexdigit. destruct (Z.ltb_spec n 10).
  - assert (inr 48 57 (zb (48 + n)) = true) as -> by (apply inr_spec; rewrite bz_zb; lia). rewrite bz_zb by lia. f_equal. lia.
  - assert (inr 48 57 (zb (87 + n)) = false) as -> by (apply inr_false; rewrite bz_zb; lia).
    assert (inr 97 102 (zb (87 + n)) = true) as -> by (apply inr_spec; rewrite bz_zb; lia). rewrite bz_zb by lia. f_equal. lia.
Qed.
Lemma parse_u4 n l : 0 ≤ n < 0x10000 → (n < 0xD800 ∨ 0xE000 ≤ n) → parse_str (u4 n ++ l) = pcons (utf8_encode n) (parse_str l).
Proof.
  intros Hn Hs. unfold u4. cbn [app parse_str].
  change (Ascii.eqb bs q) with false. change (Ascii.eqb bs bs) with true. change (simple_escape "u"%char) with (@None ascii).
  change (Ascii.eqb "u"%char "u"%char) with true. cbv iota.
  assert (hex4 (hexdigit (n / 4096)) (hexdigit (n / 256 mod 16)) (hexdigit (n / 16 mod 16)) (hexdigit (n mod 16)) = Some n) as ->.
  { pose proof (Z.div_mod n 16 ltac:(lia)). pose proof (Z.mod_pos_bound n 16 ltac:(lia)).
    pose proof (Z.div_mod (n / 16) 16 ltac:(lia)). pose proof (Z.mod_pos_bound (n / 16) 16 ltac:(lia)).
    pose proof (Z.div_mod (n / 256) 16 ltac:(lia)). pose proof (Z.mod_pos_bound (n / 256) 16 ltac:(lia)).
    rewrite Z.div_div in H1 by lia. rewrite Z.div_div in H3 by lia. change (16 * 16) with 256 in *. change (256 * 16) with 4096 in *.
    unfold hex4. rewrite !hexval_hexdigit by lia. f_equal. lia. }
  destruct (Z.leb_spec 0xD800 n), (Z.ltb_spec n 0xE000); simpl; done || lia.
Qed.
Lemma parse_esc1 c l : utf8_1 c = true → parse_str (esc1 c ++ l) = pcons [c] (parse_str l).
Proof.
  intros Hc. pose proof Hc as Hc'. apply inr_spec in Hc'. unfold esc1.
  destruct (Ascii.eqb_spec c q) as [->|Hq]; [done|]. destruct (Ascii.eqb_spec c bs) as [->|Hb]; [done|]. simpl orb.
  destruct (Z.eqb_spec (bz c) 10) as [E|E10]; [assert (c = zb 10) as -> by (by rewrite <- E, zb_bz); done|].
  destruct (Z.eqb_spec (bz c) 13) as [E|E13]; [assert (c = zb 13) as -> by (by rewrite <- E, zb_bz); done|].
  destruct (Z.eqb_spec (bz c) 9) as [E|E9]; [assert (c = zb 9) as -> by (by rewrite <- E, zb_bz); done|].
  assert (utf8_encode (bz c) = [c]) as Ec.
  { unfold utf8_encode. destruct (Z.ltb_spec (bz c) 0x80); [by rewrite zb_bz|lia]. }
  destruct ((bz c <? 32) || Ascii.eqb c "<"%char || Ascii.eqb c ">"%char || Ascii.eqb c "&"%char) eqn:E.
  - rewrite parse_u4 by lia. by rewrite Ec.
  - rewrite !orb_false_iff in E. destruct E as [[[E _] _] _]. cbn [app parse_str].
    destruct (Ascii.eqb_spec c q); [done|]. destruct (Ascii.eqb_spec c bs); [done|]. by rewrite E, Hc.
Qed.
Lemma pcons_pcons a b r : pcons a (pcons b r) = pcons (a ++ b) r.
Proof. destruct r as [[s r]|]; [|done]. simpl. by rewrite app_assoc. Qed.
Lemma not_ascii_not_special c : utf8_1 c = false → Ascii.eqb c q = false ∧ Ascii.eqb c bs = false ∧ (bz c <? 32) = false.
Proof.
  intros H. apply inr_false in H. pose proof (bz_range c).
  split_and!; [| |apply Z.ltb_ge; lia]; apply Ascii.eqb_neq; intros ->; vm_compute in H; intuition lia.
Qed.
Lemma parse_esc_bytes l rest : parse_str (esc_bytes l ++ q :: rest) = Some (fix_bytes l, rest).
Proof.
  remember (length l) as n eqn:Hn. revert l Hn. induction (lt_wf n) as [n _ IH]. intros l ->.
  assert (∀ l', (length l' < length l)%nat → parse_str (esc_bytes l' ++ q :: rest) = Some (fix_bytes l', rest)) as IH'.
  { intros l' Hl'. exact (IH _ Hl' _ eq_refl). }
  clear IH. destruct l as [|b0 l1]; [done|]. cbn [esc_bytes fix_bytes].
  destruct (utf8_1 b0) eqn:E1.
  { rewrite <- app_assoc, parse_esc1 by done. rewrite IH' by (simpl; lia). done. }
  destruct (not_ascii_not_special b0 E1) as (S1 & S2 & S3).
  assert (parse_str ((u4 0xFFFD ++ esc_bytes l1) ++ q :: rest) = Some (runeError ++ fix_bytes l1, rest)) as Hbad.
  { rewrite <- app_assoc, parse_u4 by lia. rewrite IH' by (simpl; lia). done. }
  destruct l1 as [|b1 l2]; [exact Hbad|].
  destruct (utf8_2 b0 b1) eqn:E2.
  { rewrite <- !app_comm_cons. cbn [parse_str]. rewrite S1, S2, S3, E1, E2. rewrite IH' by (simpl; lia). done. }
  destruct l2 as [|b2 l3]; [exact Hbad|].
  destruct (utf8_3 b0 b1 b2) eqn:E3.
  { destruct ((bz b0 =? 0xE2) && (bz b1 =? 0x80) && ((bz b2 =? 0xA8) || (bz b2 =? 0xA9))) eqn:Els.
    - rewrite !andb_true_iff, orb_true_iff, !Z.eqb_eq in Els. destruct Els as [[L0 L1] L2].
      rewrite <- app_assoc, parse_u4 by lia. rewrite IH' by (simpl; lia). cbn [pcons].
      assert (utf8_encode (0x2028 + (bz b2 - 0xA8)) = [b0; b1; b2]) as ->; [|done].
      rewrite <- (zb_bz b0), <- (zb_bz b1), L0, L1. destruct L2 as [L2|L2]; rewrite <- (zb_bz b2), L2; vm_compute; reflexivity.
    - rewrite <- app_assoc. cbn [app parse_str]. rewrite S1, S2, S3, E1, E2, E3. rewrite IH' by (simpl; lia). done. }
  destruct l3 as [|b3 l4]; [exact Hbad|].
  destruct (utf8_4 b0 b1 b2 b3) eqn:E4; [|exact Hbad].
  rewrite <- !app_comm_cons. cbn [parse_str]. rewrite S1, S2, S3, E1, E2, E3, E4. rewrite IH' by (simpl; lia). done.
Qed.
Lemma parse_render_string s rest :
  ∃ l, render_string s ++ rest = q :: l ∧ parse_str l = Some (list_ascii_of_string (fix_utf8 s), rest).
Proof.
  unfold render_string. exists (esc_bytes (list_ascii_of_string s) ++ q :: rest). split.
  - simpl. by rewrite <- app_assoc.
  - rewrite parse_esc_bytes. unfold fix_utf8. by rewrite list_ascii_of_string_of_list_ascii.
Qed.

(** *** Numbers *)
Lemma is_digit_value c : is_digit c = true ↔ 0 ≤ digit_value c ≤ 9.
Proof. unfold is_digit. rewrite inr_spec. unfold digit_value, bz. lia. Qed.
Definition all_digits (l : list ascii) : Prop := Forall (λ c, is_digit c = true) l.
Lemma all_digits_value l : all_digits l ↔ Forall (λ c, 0 ≤ digit_value c ≤ 9) l.
Proof. unfold all_digits. split; intros H; (eapply Forall_impl; [exact H|]); intros c Hc; by apply is_digit_value. Qed.
Definition no_digit (r : list ascii) : Prop := match r with [] => True | c :: _ => is_digit c = false end.
Lemma span_digits_app ds r : all_digits ds → no_digit r → span_digits (ds ++ r) = (ds, r).
Proof.
  induction 1 as [|c ds Hc Hds IH]; intros Hr.
  - destruct r as [|c r]; [done|]. simpl in *. by rewrite Hr.
  - simpl. by rewrite Hc, IH.
Qed.
Lemma strip_zeros_spec l : l ≠ [] → all_digits l →
  strip_zeros l ≠ [] ∧ all_digits (strip_zeros l) ∧ decimal_value (strip_zeros l) = decimal_value l ∧
  (∀ r, strip_zeros l = "0"%char :: r → r = []).
Proof.
  intros Hne H. induction H as [|c l Hc Hl IH]; [done|]. cbn [strip_zeros].
  destruct l as [|c' l'].
  - split_and!; [done|by repeat constructor|done|]. by intros r [= _ <-].
  - destruct (Ascii.eqb_spec c "0"%char) as [->|Hn].
    + destruct IH as (I1 & I2 & I3 & I4); [done|]. split_and!; [done|done| |done]. rewrite I3. cbn [decimal_value].
      change (digit_value "0"%char) with 0. lia.
    + split_and!; [done|by constructor|done|]. intros r [= -> _]. done.
Qed.
Lemma digits_spec n : 0 ≤ n →
  digits n ≠ [] ∧ all_digits (digits n) ∧ decimal_value (digits n) = n ∧ (∀ r, digits n = "0"%char :: r → r = []).
Proof.
  intros Hn. unfold digits. set (w := S (Z.to_nat (Z.log2 n))).
  assert (0 ≤ n < 10 ^ Z.of_nat w) as Hb.
  { split; [done|]. pose proof (Z.log2_nonneg n). unfold w. rewrite Nat2Z.inj_succ, Z2Nat.id by done.
    destruct (decide (n = 0)) as [->|Hn0]; [vm_compute; reflexivity|].
    pose proof (Z.log2_spec n ltac:(lia)) as [_ H2]. eapply Z.lt_le_trans; [exact H2|]. apply Z.pow_le_mono_l. lia. }
  destruct (appendInt_text w n Hb) as (H1 & H2 & H3).
  destruct (strip_zeros_spec (appendInt n w)) as (S1 & S2 & S3 & S4).
  - unfold w in *. by destruct (appendInt n _).
  - by apply all_digits_value.
  - split_and!; [done|done|congruence|done].
Qed.
(** What may follow a number. *)
Definition num_end (r : list ascii) : Prop :=
  match r with [] => True | c :: _ => is_digit c = false ∧ c ≠ "."%char ∧ c ≠ "e"%char ∧ c ≠ "E"%char end.
Lemma num_end_no_digit r : num_end r → no_digit r.
Proof. destruct r; [done|]. by intros [? _]. Qed.
Lemma parse_frac_none r : (∀ c l, r = c :: l → c ≠ "."%char) → parse_frac r = Some ([], r).
Proof. intros H. destruct r as [|c l]; [done|]. simpl. destruct (Ascii.eqb_spec c "."%char) as [->|]; [by destruct (H _ _ eq_refl)|done]. Qed.
Lemma parse_frac_some ds r : ds ≠ [] → all_digits ds → no_digit r → parse_frac ("."%char :: ds ++ r) = Some (ds, r).
Proof. intros Hne Hd Hr. simpl. rewrite span_digits_app by done. by destruct ds. Qed.
Lemma parse_exp_none r : num_end r → parse_exp r = Some (0, r).
Proof.
  destruct r as [|c l]; [done|]. intros (_ & _ & H1 & H2). simpl.
  destruct (Ascii.eqb_spec c "e"%char); [done|]. destruct (Ascii.eqb_spec c "E"%char); done.
Qed.
Lemma parse_exp_some x r : no_digit r → parse_exp (render_exp x ++ r) = Some (x, r).
Proof.
  intros Hr. destruct (digits_spec (Z.abs x) ltac:(lia)) as (D1 & D2 & D3 & _).
  unfold render_exp. destruct (Z.ltb_spec x 0); cbn [app parse_exp]; simpl Ascii.eqb; cbn [orb];
    rewrite span_digits_app by done; (destruct (digits (Z.abs x)) as [|d ds] eqn:E; [done|]); rewrite D3; f_equal; f_equal; lia.
Qed.
Lemma parse_int_digits ds r : ds ≠ [] → all_digits ds → (∀ t, ds = "0"%char :: t → t = []) → no_digit r →
  parse_int (ds ++ r) = Some (ds, r).
Proof.
  intros Hne Hd Hz Hr. destruct ds as [|d ds]; [done|]. unfold parse_int.
  assert (parse_int ((d :: ds) ++ r) = parse_int ((d :: ds) ++ r)) as _ by done.
  cbn [app]. destruct (Ascii.eqb_spec d "0"%char) as [->|Hn].
  - by rewrite (Hz ds eq_refl).
  - rewrite app_comm_cons, span_digits_app by done. done.
Qed.
Lemma decimal_value_lead k l : decimal_value (repeat "0"%char k ++ l) = decimal_value l.
Proof. induction k as [|k IH]; [done|]. simpl. rewrite IH. change (digit_value "0"%char) with 0. lia. Qed.
Lemma all_digits_zeros k : all_digits (repeat "0"%char k).
Proof. induction k; simpl; constructor; done. Qed.
Lemma parse_neg (neg : bool) l rest f : (∀ c l', l ++ rest = c :: l' → c ≠ "-"%char) →
  (let '(n, l1) := match (if neg then ["-"%char] else []) ++ l ++ rest with
                   | c :: l1 => if Ascii.eqb c "-"%char then (true, l1) else (false, (if neg then ["-"%char] else []) ++ l ++ rest)
                   | [] => (false, []) end in f n l1 : option (json * list ascii)) = f neg (l ++ rest).
Proof.
  intros H. destruct neg; [done|]. simpl. destruct (l ++ rest) as [|c l'] eqn:E; [done|].
  destruct (Ascii.eqb_spec c "-"%char) as [->|]; [by destruct (H _ _ eq_refl)|done].
Qed.
Lemma digit_not_minus c : is_digit c = true → c ≠ "-"%char.
Proof. intros H ->. done. Qed.
Lemma parse_render_num neg m e r : 0 ≤ m → num_end r → parse_num (render_num neg m e ++ r) = Some (JNum neg m e, r).
Proof.
  intros Hm Hr. destruct (digits_spec m Hm) as (D1 & D2 & D3 & D4).
  unfold render_num. set (ds := digits m) in *. set (n := Z.of_nat (length ds)).
  assert (1 ≤ n) as Hn by (unfold n; destruct ds; simpl; [done|lia]).
  rewrite <- app_assoc. unfold parse_num.
  destruct (Z.eqb_spec e 0) as [->|He0].
  { rewrite parse_neg.
    2:{ intros c l' Hc. destruct ds as [|d ds']; [done|]. simpl in Hc. simplify_eq. apply digit_not_minus. by inversion D2. }
    rewrite parse_int_digits by (try done; by apply num_end_no_digit).
    rewrite parse_frac_none by (intros c l ->; by destruct Hr as (_ & ? & _)).
    rewrite parse_exp_none by done. rewrite app_nil_r, D3. done. }
  destruct ((e <? 0) && (-6 <=? n - 1 + e)) eqn:Ef.
  { rewrite andb_true_iff, Z.ltb_lt, Z.leb_le in Ef. destruct Ef as [He Hx].
    destruct (Z.ltb_spec (- e) n) as [Hlt|Hge].
    - set (k := Z.to_nat (n + e)).
      assert (0 < k < length ds)%nat as Hk by (unfold k, n in *; lia).
      assert (all_digits (take k ds) ∧ all_digits (drop k ds)) as [T1 T2].
      { rewrite <- (take_drop k ds) in D2. by apply Forall_app in D2. }
      assert (take k ds ≠ []) as Tn. { intros Hz. apply (f_equal length) in Hz. rewrite firstn_length_le in Hz by lia. simpl in Hz. lia. }
      assert (drop k ds ≠ []) as Dn. { intros Hz. apply (f_equal length) in Hz. rewrite skipn_length in Hz. simpl in Hz. lia. }
      rewrite parse_neg.
      2:{ intros c l' Hc. destruct (take k ds) as [|d ds'] eqn:Et; [done|]. simpl in Hc. simplify_eq. apply digit_not_minus. by inversion T1. }
      rewrite <- app_assoc. rewrite parse_int_digits; [|done|done| |done].
      2:{ intros t Ht. destruct ds as [|d ds']; [done|]. destruct k as [|k]; [lia|]. simpl in Ht. injection Ht as Hd Ht.
          specialize (D4 ds'). rewrite Hd in D4. rewrite (D4 eq_refl) in Hk. simpl in Hk. lia. }
      rewrite <- app_assoc. change (["."%char] ++ drop k ds ++ r) with ("."%char :: drop k ds ++ r).
      rewrite parse_frac_some by (try done; by apply num_end_no_digit). rewrite parse_exp_none by done.
      rewrite take_drop, D3, skipn_length. do 3 f_equal. unfold k, n in *. lia.
    - rewrite parse_neg by (intros c l' [= <- _]; done).
      set (k := Z.to_nat (- e - n)).
      change ((["0"%char; "."%char] ++ repeat "0"%char k ++ ds) ++ r) with (["0"%char] ++ "."%char :: (repeat "0"%char k ++ ds) ++ r).
      rewrite parse_int_digits; [|done|by repeat constructor|by intros t [= <-]|done].
      rewrite parse_frac_some.
      2:{ intros Hz. by apply app_eq_nil in Hz as [_ ?]. }
      2:{ apply Forall_app. split; [apply all_digits_zeros|done]. }
      2:{ by apply num_end_no_digit. }
      rewrite parse_exp_none by done.
      change (["0"%char] ++ repeat "0"%char k ++ ds) with (repeat "0"%char (S k) ++ ds).
      rewrite decimal_value_lead, D3, app_length, repeat_length. do 3 f_equal. unfold k, n in *. lia. }
  clear Ef. set (x := n - 1 + e).
  destruct ds as [|d ds'] eqn:Eds; [done|]. rewrite parse_neg.
  2:{ intros c l' Hc. simpl in Hc. simplify_eq. apply digit_not_minus. by inversion D2. }
  assert (is_digit d = true ∧ all_digits ds') as [Hd Hds'] by (by inversion D2).
  assert (no_digit (render_exp x ++ r)) as Hne by done.
  rewrite <- app_comm_cons, <- app_assoc.
  change (d :: (match ds' with [] => [] | _ :: _ => "."%char :: ds' end) ++ render_exp x ++ r)
    with ([d] ++ (match ds' with [] => [] | _ :: _ => "."%char :: ds' end) ++ render_exp x ++ r).
  rewrite parse_int_digits; [|done|by repeat constructor| |by destruct ds'].
  2:{ by intros t [= _ <-]. }
  destruct ds' as [|d2 ds''] eqn:Eds'.
  - cbn [app]. rewrite parse_frac_none by (intros c l [= <- _]; done).
    change ("e"%char :: ?l) with (render_exp x ++ r).
    rewrite parse_exp_some by (by apply num_end_no_digit). rewrite ?app_nil_r. cbn [app]. rewrite D3. do 3 f_equal. unfold x, n. simpl. lia.
  - rewrite <- app_comm_cons. rewrite parse_frac_some by done.
    rewrite parse_exp_some by (by apply num_end_no_digit). change ([d] ++ d2 :: ds'') with (d :: d2 :: ds''). rewrite D3.
    do 3 f_equal. unfold x, n. cbn [length]. lia.
Qed.

(** *** Values *)
Fixpoint jfuel (j : json) : nat :=
  match j with
  | JArr l => S (fold_right (λ j n, S (jfuel j + n)) O l)
  | JObj m => S (fold_right (λ (kv : string * json) n, S ((let '(_, j) := kv in jfuel j) + n)) O m)
  | _ => 1%nat
  end.
Lemma render_num_head neg m e : 0 ≤ m → ∃ c l, render_num neg m e = c :: l ∧ (c = "-"%char ∨ is_digit c = true).
Proof.
  intros Hm. destruct (digits_spec m Hm) as (D1 & D2 & _ & _). unfold render_num.
  destruct neg; [by eexists _, _; split; [reflexivity|left]|]. cbn [app].
  destruct (digits m) as [|d ds] eqn:Ed; [done|]. assert (is_digit d = true) as Hd by (by inversion D2).
  destruct (e =? 0); [by eexists _, _; split; [reflexivity|right]|].
  destruct ((e <? 0) && _).
  - destruct (Z.ltb_spec (- e) (Z.of_nat (length (d :: ds)))) as [Hlt|Hge].
    + destruct (Z.to_nat _) as [|k] eqn:Ek; [lia|]. by eexists _, _; split; [reflexivity|right].
    + by eexists _, _; split; [reflexivity|right].
  - by eexists _, _; split; [reflexivity|right].
Qed.
Lemma digit_not c d : is_digit c = true → is_digit d = false → Ascii.eqb c d = false.
Proof. intros H1 H2. apply Ascii.eqb_neq. intros ->. congruence. Qed.
Lemma digit_not_ws c : is_digit c = true → is_ws c = false.
Proof.
  intros H. apply inr_spec in H. unfold is_ws. rewrite !orb_false_iff, !Z.eqb_neq. lia.
Qed.
Lemma render_head j : jwf j → ∃ c l, render j = c :: l ∧ is_ws c = false ∧ c ≠ "]"%char ∧ c ≠ "}"%char.
Proof.
  destruct j as [|[]|neg m e|s|l|m]; intros Hw; try (by eexists _, _; split; [reflexivity|]).
  destruct (render_num_head neg m e Hw) as (c & l & E & Hc). exists c, l. split; [exact E|].
  destruct Hc as [->|Hc]; [done|]. split; [by apply digit_not_ws|]. by split; intros ->.
Qed.
Lemma skip_ws_render j rest : jwf j → skip_ws (render j ++ rest) = render j ++ rest.
Proof. intros Hw. destruct (render_head j Hw) as (c & l & -> & Hc & _). simpl. by rewrite Hc. Qed.
Lemma list_string s : string_of_list_ascii (list_ascii_of_string s) = s.
Proof. apply string_of_list_ascii_of_string. Qed.

Lemma pvalue_render j : jwf j → ∀ n rest, (jfuel j ≤ n)%nat → num_end rest →
  pvalue n (render j ++ rest) = Some (jfix j, rest).
Proof.
  induction j as [|b|neg m e|s|l IH|m IH] using json_ind'; intros Hw n rest Hn Hr; (destruct n as [|n]; [simpl in Hn; lia|]).
  - done.
  - by destruct b.
  - cbn [render]. cbn [pvalue]. change (render_num neg m e) with (render (JNum neg m e)).
    rewrite skip_ws_render by done. cbn [render].
    pose proof (parse_render_num neg m e rest Hw Hr) as Hp.
    destruct (render_num_head neg m e Hw) as (c & l & E & Hc). rewrite E in Hp |- *. cbn [app] in Hp |- *.
    destruct Hc as [->|Hc]; [exact Hp|]. rewrite !(digit_not c) by done. exact Hp.
  - cbn [render pvalue]. destruct (parse_render_string s rest) as (l & -> & Hp).
    cbn [skip_ws]. change (is_ws q) with false. cbv iota. change (Ascii.eqb q q) with true. cbv iota. rewrite Hp.
    by rewrite list_string.
  - (* arrays *)
    apply jwf_arr in Hw. cbn [render]. rewrite <- app_comm_cons, <- app_assoc. cbn [pvalue skip_ws].
    change (is_ws "["%char) with false. cbv iota. change (Ascii.eqb "["%char q) with false.
    change (Ascii.eqb "["%char "["%char) with true. cbv iota.
    destruct l as [|j0 l0] eqn:El; [done|]. rewrite <- El in *.
    assert (∃ c' r', skip_ws (join ","%char (map render l) ++ ["]"%char] ++ rest) = c' :: r' ∧ Ascii.eqb c' "]"%char = false) as (c' & r' & -> & Hc').
    { subst l. apply Forall_cons in Hw as [Hw0 _]. destruct (render_head j0 Hw0) as (c & t & E & Hc & H1 & _).
      assert (∃ t', join ","%char (map render (j0 :: l0)) = c :: t') as (t' & ->).
      { simpl. rewrite E. destruct (map render l0); by eexists. }
      simpl. rewrite Hc. eexists _, _. split; [reflexivity|]. by apply Ascii.eqb_neq. }
    rewrite Hc'. simpl in Hn.
    assert (pelems n (join ","%char (map render l) ++ ["]"%char] ++ rest) = Some (map jfix l, rest)) as ->; [|done].
    assert (l ≠ []) as Hne by (by subst). clear El j0 l0 Hc' c' r'. revert n Hn.
    induction l as [|j l IHl]; [done|]. intros n Hn. apply Forall_cons in IH as [IHj IH]. apply Forall_cons in Hw as [Hwj Hw].
    simpl in Hn. destruct n as [|n]; [lia|]. cbn [pelems].
    destruct l as [|j1 l1] eqn:El.
    + cbn [map join]. rewrite IHj by (try done; lia). done.
    + rewrite <- El in *.
      assert (join ","%char (map render (j :: l)) = render j ++ ","%char :: join ","%char (map render l)) as -> by (subst l; done).
      rewrite <- app_assoc, <- app_comm_cons. rewrite IHj by (try done; lia). cbn [skip_ws].
      change (is_ws ","%char) with false. cbv iota. change (Ascii.eqb ","%char ","%char) with true. cbv iota.
      rewrite IHl; [done|done|done|by subst|lia].
  - (* objects *)
    apply jwf_obj in Hw. cbn [render]. rewrite <- app_comm_cons, <- app_assoc. cbn [pvalue skip_ws].
    change (is_ws "{"%char) with false. cbv iota. change (Ascii.eqb "{"%char q) with false. change (Ascii.eqb "{"%char "["%char) with false.
    change (Ascii.eqb "{"%char "{"%char) with true. cbv iota.
    set (rm := λ kv : string * json, let '(k, j) := kv in render_string k ++ ":"%char :: render j).
    destruct m as [|[k0 j0] l0] eqn:El; [done|]. rewrite <- El in *.
    assert (∃ c' r', skip_ws (join ","%char (map rm m) ++ ["}"%char] ++ rest) = c' :: r' ∧ Ascii.eqb c' "}"%char = false) as (c' & r' & -> & Hc').
    { subst m. assert (∃ t', join ","%char (map rm ((k0, j0) :: l0)) = q :: t') as (t' & ->).
      { simpl. destruct (map rm l0); by eexists. }
      eexists _, _. split; [reflexivity|]. done. }
    rewrite Hc'. simpl in Hn.
    assert (pmembers n (join ","%char (map rm m) ++ ["}"%char] ++ rest)
            = Some (map (λ kv : string * json, let '(k, j) := kv in (fix_utf8 k, jfix j)) m, rest)) as ->; [|done].
    assert (m ≠ []) as Hne by (by subst). clear El j0 k0 l0 Hc' c' r'. revert n Hn.
    induction m as [|[k j] l IHl]; [done|]. intros n Hn. apply Forall_cons in IH as [IHj IH]. apply Forall_cons in Hw as [Hwj Hw].
    simpl in Hn. destruct n as [|n]; [lia|]. cbn [pmembers]. simpl in IHj, Hwj.
    destruct l as [|j1 l1] eqn:El.
    + cbn [map join]. unfold rm at 1. rewrite <- app_assoc, <- app_comm_cons.
      destruct (parse_render_string k (":"%char :: render j ++ ["}"%char] ++ rest)) as (t & -> & Hp).
      cbn [skip_ws]. change (is_ws q) with false. cbv iota. change (Ascii.eqb q q) with true. cbv iota. rewrite Hp.
      cbn [skip_ws]. change (is_ws ":"%char) with false. cbv iota. change (Ascii.eqb ":"%char ":"%char) with true. cbv iota.
      rewrite IHj by (try done; lia). cbn. by rewrite list_string.
    + rewrite <- El in *.
      assert (join ","%char (map rm ((k, j) :: l)) = render_string k ++ ":"%char :: render j ++ ","%char :: join ","%char (map rm l)) as ->.
      { subst l. cbn [map join]. unfold rm at 1. by rewrite <- app_assoc. }
      rewrite <- app_assoc, <- app_comm_cons, <- app_assoc, <- app_comm_cons.
      destruct (parse_render_string k (":"%char :: render j ++ ","%char :: join ","%char (map rm l) ++ ["}"%char] ++ rest)) as (t & -> & Hp).
      cbn [skip_ws]. change (is_ws q) with false. cbv iota. change (Ascii.eqb q q) with true. cbv iota. rewrite Hp.
      cbn [skip_ws]. change (is_ws ":"%char) with false. cbv iota. change (Ascii.eqb ":"%char ":"%char) with true. cbv iota.
      rewrite IHj by (try done; lia). cbn [skip_ws].
      change (is_ws ","%char) with false. cbv iota. change (Ascii.eqb ","%char ","%char) with true. cbv iota.
      rewrite IHl; [by rewrite list_string|done|done|by subst|lia].
Qed.
Lemma join_length sep (l : list (list ascii)) : length (join sep l) = (fold_right (λ x n, length x + n) 0 l + (length l - 1))%nat.
Proof.
  induction l as [|x l IH]; [done|]. destruct l as [|y l]; [simpl; lia|].
  change (join sep (x :: y :: l)) with (x ++ sep :: join sep (y :: l)). rewrite app_length. cbn [length]. rewrite IH. simpl. lia.
Qed.
Lemma jfuel_length j : jwf j → (jfuel j ≤ 2 * length (render j))%nat.
Proof.
  induction j as [|b|neg m e|s|l IH|m IH] using json_ind'; intros Hw.
  - simpl. lia.
  - destruct b; simpl; lia.
  - destruct (render_head _ Hw) as (c & t & E & _). rewrite E. simpl. lia.
  - destruct (render_head _ Hw) as (c & t & E & _). rewrite E. simpl. lia.
  - apply jwf_arr in Hw. cbn [render jfuel length]. rewrite app_length, join_length, map_length. cbn [length].
    assert (fold_right (λ j n, S (jfuel j + n)) 0 l ≤ 2 * fold_right (λ x n, length x + n) 0 (map render l) + length l)%nat as Hs.
    { induction l as [|j l IHl]; [done|]. apply Forall_cons in IH as [IHj IH]. apply Forall_cons in Hw as [Hwj Hw].
      specialize (IHl IH Hw). specialize (IHj Hwj). simpl. lia. }
    lia.
  - apply jwf_obj in Hw. cbn [render jfuel length]. rewrite app_length, join_length, map_length. cbn [length].
    assert (fold_right (λ (kv : string * json) n, S ((let '(_, j) := kv in jfuel j) + n)) 0 m
      ≤ 2 * fold_right (λ x n, length x + n) 0 (map (λ kv : string * json, let '(k, j) := kv in render_string k ++ ":"%char :: render j) m) + length m)%nat as Hs.
    { induction m as [|[k j] l IHl]; [done|]. apply Forall_cons in IH as [IHj IH]. apply Forall_cons in Hw as [Hwj Hw].
      specialize (IHl IH Hw). specialize (IHj Hwj). simpl in *. rewrite !app_length. cbn [length]. lia. }
    lia.
Qed.
Lemma parse_render j : jwf j → parse (render j) = Some (jfix j).
Proof.
  intros Hw. unfold parse. pose proof (pvalue_render j Hw (S (2 * length (render j))) []) as H.
  rewrite app_nil_r in H. rewrite H; [done| |done]. pose proof (jfuel_length j Hw). lia.
Qed.

(** *** The text is one line: no byte below a space. *)
Definition printable (c : ascii) : Prop := 32 ≤ bz c.
Lemma hexdigit_printable n : 0 ≤ n < 16 → printable (hexdigit n).
Proof. intros H. unfold printable, hexdigit. destruct (Z.ltb_spec n 10); rewrite bz_zb; lia. Qed.
Lemma u4_printable n : 0 ≤ n < 0x10000 → Forall printable (u4 n).
Proof.
  intros Hn. pose proof (Z.mod_pos_bound (n / 256) 16 ltac:(lia)). pose proof (Z.mod_pos_bound (n / 16) 16 ltac:(lia)).
  pose proof (Z.mod_pos_bound n 16 ltac:(lia)).
  assert (0 ≤ n / 4096 < 16) by (split; [apply Z.div_pos; lia|apply Z.div_lt_upper_bound; lia]).
  unfold u4. repeat (apply List.Forall_cons; [first [by apply hexdigit_printable|vm_compute; done]|]). apply List.Forall_nil.
Qed.
Lemma utf8_1_false_printable c : utf8_1 c = false → printable c.
Proof. intros H. apply inr_false in H. pose proof (bz_range c). unfold printable. lia. Qed.
Lemma inr_printable lo hi c : 32 ≤ lo → inr lo hi c = true → printable c.
Proof. intros Hl H. apply inr_spec in H. unfold printable. lia. Qed.
Lemma esc1_printable c : utf8_1 c = true → Forall printable (esc1 c).
Proof.
  intros Hc. apply inr_spec in Hc. unfold esc1.
  destruct (Ascii.eqb_spec c q) as [->|]; [by repeat constructor; vm_compute|].
  destruct (Ascii.eqb_spec c bs) as [->|]; [by repeat constructor; vm_compute|]. simpl orb.
  destruct (_ =? 10); [by repeat constructor; vm_compute|]. destruct (_ =? 13); [by repeat constructor; vm_compute|].
  destruct (_ =? 9); [by repeat constructor; vm_compute|].
  destruct (Z.ltb_spec (bz c) 32); cbn [orb]; [apply u4_printable; lia|].
  destruct (_ || _); [apply u4_printable; lia|]. repeat constructor. unfold printable. lia.
Qed.
Lemma esc_bytes_printable l : Forall printable (esc_bytes l).
Proof.
  remember (length l) as n eqn:Hn. revert l Hn. induction (lt_wf n) as [n _ IH]. intros l ->.
  assert (∀ l', (length l' < length l)%nat → Forall printable (esc_bytes l')) as IH' by (intros l' Hl'; exact (IH _ Hl' _ eq_refl)).
  clear IH. destruct l as [|b0 l1]; [constructor|]. cbn [esc_bytes].
  destruct (utf8_1 b0) eqn:E1.
  { apply Forall_app. split; [by apply esc1_printable|]. apply IH'. simpl. lia. }
  pose proof (utf8_1_false_printable _ E1) as P0.
  assert (Forall printable (u4 0xFFFD ++ esc_bytes l1)) as Hbad.
  { apply Forall_app. split; [apply u4_printable; lia|]. apply IH'. simpl. lia. }
  destruct l1 as [|b1 l2]; [exact Hbad|].
  destruct (utf8_2 b0 b1) eqn:E2.
  { unfold utf8_2 in E2. apply andb_true_iff in E2 as [_ E2]. apply inr_printable in E2; [|lia].
    repeat (constructor; [done|]). apply IH'. simpl. lia. }
  destruct l2 as [|b2 l3]; [exact Hbad|].
  destruct (utf8_3 b0 b1 b2) eqn:E3.
  { unfold utf8_3 in E3. rewrite !andb_true_iff, !orb_true_iff, !andb_true_iff, !inr_spec in E3.
    apply Forall_app. split; [|apply IH'; simpl; lia].
    destruct (_ && _ && _) eqn:El.
    - rewrite !andb_true_iff, orb_true_iff, !Z.eqb_eq in El. apply u4_printable. lia.
    - repeat (apply List.Forall_cons; [done || (unfold printable; lia)|]). apply List.Forall_nil. }
  destruct l3 as [|b3 l4]; [exact Hbad|].
  destruct (utf8_4 b0 b1 b2 b3) eqn:E4; [|exact Hbad].
  unfold utf8_4 in E4. rewrite !andb_true_iff, !orb_true_iff, !andb_true_iff, !inr_spec in E4.
  repeat (apply List.Forall_cons; [done || (unfold printable; lia)|]). apply IH'. simpl. lia.
Qed.
Lemma render_string_printable s : Forall printable (render_string s).
Proof.
  unfold render_string. constructor; [by vm_compute|]. apply Forall_app. split; [apply esc_bytes_printable|].
  constructor; [by vm_compute|constructor].
Qed.
Lemma digits_printable l : all_digits l → Forall printable l.
Proof. intros H. eapply Forall_impl; [exact H|]. intros c Hc. by apply (inr_printable 48 57). Qed.
Lemma render_exp_printable x : Forall printable (render_exp x).
Proof.
  unfold render_exp. destruct (digits_spec (Z.abs x) ltac:(lia)) as (_ & D & _). apply digits_printable in D.
  constructor; [by vm_compute|]. destruct (x <? 0); (constructor; [by vm_compute|exact D]).
Qed.
Lemma render_num_printable neg m e : 0 ≤ m → Forall printable (render_num neg m e).
Proof.
  intros Hm. destruct (digits_spec m Hm) as (_ & D & _). apply digits_printable in D. unfold render_num.
  apply Forall_app. split; [destruct neg; repeat constructor; by vm_compute|].
  destruct (e =? 0); [done|]. destruct (_ && _).
  - destruct (_ <? _).
    + rewrite <- (take_drop (Z.to_nat (Z.of_nat (length (digits m)) + e)) (digits m)) in D. apply Forall_app in D as [D1 D2].
      apply Forall_app. split; [done|]. constructor; [by vm_compute|done].
    + constructor; [by vm_compute|]. constructor; [by vm_compute|]. apply Forall_app. split; [|done].
      apply digits_printable, all_digits_zeros.
  - destruct (digits m) as [|d ds]; [constructor|]. apply Forall_cons in D as [Dd D]. constructor; [done|].
    apply Forall_app. split; [|apply render_exp_printable]. destruct ds; [constructor|]. constructor; [by vm_compute|done].
Qed.
Lemma join_Forall (P : ascii → Prop) sep l : P sep → Forall (Forall P) l → Forall P (join sep l).
Proof.
  intros Hs. induction 1 as [|x l Hx Hl IH]; [constructor|]. destruct l as [|y l]; [done|].
  change (join sep (x :: y :: l)) with (x ++ sep :: join sep (y :: l)). apply Forall_app. split; [done|]. by constructor.
Qed.
Lemma render_printable j : jwf j → Forall printable (render j).
Proof.
  induction j as [|b|neg m e|s|l IH|m IH] using json_ind'; intros Hw.
  - repeat constructor; by vm_compute.
  - destruct b; repeat constructor; by vm_compute.
  - by apply render_num_printable.
  - apply render_string_printable.
  - apply jwf_arr in Hw. cbn [render]. constructor; [by vm_compute|]. apply Forall_app. split; [|constructor; [by vm_compute|constructor]].
    apply join_Forall; [by vm_compute|]. apply Forall_forall. intros x Hx. apply elem_of_list_fmap in Hx as (j & -> & Hj).
    rewrite Forall_forall in IH, Hw. auto.
  - apply jwf_obj in Hw. cbn [render]. constructor; [by vm_compute|]. apply Forall_app. split; [|constructor; [by vm_compute|constructor]].
    apply join_Forall; [by vm_compute|]. apply Forall_forall. intros x Hx. apply elem_of_list_fmap in Hx as ([k j] & -> & Hj).
    rewrite Forall_forall in IH, Hw. specialize (IH _ Hj (Hw _ Hj)). simpl in IH. apply Forall_app. split; [apply render_string_printable|].
    constructor; [by vm_compute|done].
Qed.
