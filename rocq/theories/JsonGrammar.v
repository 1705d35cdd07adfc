(** * JSON text, independently of the code: RFC 8259.

    [document text j]: the bytes [text] are a JSON text for the value [j].  A number is
    [JNum neg m e], (-) m * 10^e.  Where RFC 8259 leaves the choice to the
    implementation (lone surrogates, bytes that are not UTF-8), both become U+FFFD,
    which is what package encoding/json documents. *)
From Verif Require Export Json.
Local Open Scope Z_scope.

Definition chars (s : string) : list ascii := list_ascii_of_string s.
(** Section 2: white space. *)
Definition blank (c : ascii) : Prop := bz c ∈ [0x20; 0x09; 0x0A; 0x0D].
Definition blanks (l : list ascii) : Prop := Forall blank l.

(** Section 7: strings. *)
Inductive hex : ascii → Z → Prop :=
| hex_digit c : 0x30 ≤ bz c ≤ 0x39 → hex c (bz c - 0x30)
| hex_upper c : 0x41 ≤ bz c ≤ 0x46 → hex c (bz c - 0x41 + 10)
| hex_lower c : 0x61 ≤ bz c ≤ 0x66 → hex c (bz c - 0x61 + 10).
(** [raw] is \uXXXX for the 16 bits [n]. *)
Definition unit_escape (raw : list ascii) (n : Z) : Prop :=
  ∃ h1 h2 h3 h4 a b c d, hex h1 a ∧ hex h2 b ∧ hex h3 c ∧ hex h4 d ∧
    raw = chars "\u" ++ [h1; h2; h3; h4] ∧ n = ((a * 16 + b) * 16 + c) * 16 + d.
Definition high (n : Z) : Prop := 0xD800 ≤ n < 0xDC00.
Definition low (n : Z) : Prop := 0xDC00 ≤ n < 0xE000.
(** The character after a backslash, and what the two stand for. *)
Definition short_escapes : list (ascii * Z) :=
  [(""""%char, 0x22); ("\"%char, 0x5C); ("/"%char, 0x2F); ("b"%char, 0x08); ("f"%char, 0x0C); ("n"%char, 0x0A);
   ("r"%char, 0x0D); ("t"%char, 0x09)].
(** [content raw s]: what stands between the quotes, and the bytes of the string. *)
Inductive content : list ascii → list ascii → Prop :=
| c_end : content [] []
| c_char c raw s : scalar c → 0x20 ≤ c → c ≠ 0x22 → c ≠ 0x5C → content raw s →
    content (utf8_encode c ++ raw) (utf8_encode c ++ s)
| c_short c x raw s : (c, x) ∈ short_escapes → content raw s → content ("\"%char :: c :: raw) (zb x :: s)
| c_unit u n raw s : unit_escape u n → ¬ high n → ¬ low n → content raw s → content (u ++ raw) (utf8_encode n ++ s)
| c_pair u n u2 n2 raw s : unit_escape u n → high n → unit_escape u2 n2 → low n2 → content raw s →
    content (u ++ u2 ++ raw) (utf8_encode (0x10000 + (n - 0xD800) * 1024 + (n2 - 0xDC00)) ++ s)
| c_lone u n raw s : unit_escape u n → high n ∨ low n →
    ¬ (high n ∧ ∃ u2 n2 raw', raw = u2 ++ raw' ∧ unit_escape u2 n2 ∧ low n2) →
    content raw s → content (u ++ raw) (utf8_encode 0xFFFD ++ s)
| c_bad b raw s : (∀ c raw', scalar c → b :: raw ≠ utf8_encode c ++ raw') → content raw s →
    content (b :: raw) (utf8_encode 0xFFFD ++ s).
Definition quoted (raw : list ascii) (s : string) : Prop :=
  ∃ inner, raw = chars """" ++ inner ++ chars """" ∧ content inner (list_ascii_of_string s).

(** Section 6: numbers. *)
Definition decimals (l : list ascii) : Prop := Forall (λ c, 0x30 ≤ bz c ≤ 0x39) l.
Definition decimal (l : list ascii) : Z := fold_left (λ a c, 10 * a + (bz c - 0x30)) l 0.
Definition int_part (l : list ascii) : Prop :=
  l = chars "0" ∨ ∃ c l', l = c :: l' ∧ 0x31 ≤ bz c ≤ 0x39 ∧ decimals l'.
(** The fraction's digits. *)
Definition frac_part (raw ds : list ascii) : Prop :=
  (raw = [] ∧ ds = []) ∨ (raw = chars "." ++ ds ∧ ds ≠ [] ∧ decimals ds).
Definition exp_part (raw : list ascii) (x : Z) : Prop :=
  (raw = [] ∧ x = 0) ∨
  ∃ e sign ds, raw = e ++ sign ++ ds ∧ (e = chars "e" ∨ e = chars "E") ∧ ds ≠ [] ∧ decimals ds ∧
    ((sign = chars "-" ∧ x = - decimal ds) ∨ ((sign = chars "+" ∨ sign = []) ∧ x = decimal ds)).
Definition numeral (raw : list ascii) (neg : bool) (m e : Z) : Prop :=
  ∃ int frac fds exp x, raw = (if neg then chars "-" else []) ++ int ++ frac ++ exp ∧
    int_part int ∧ frac_part frac fds ∧ exp_part exp x ∧
    m = decimal (int ++ fds) ∧ e = x - Z.of_nat (length fds).

(** Sections 3-5: values, without surrounding white space. *)
Inductive text_of : list ascii → json → Prop :=
| t_null : text_of (chars "null") JNull
| t_true : text_of (chars "true") (JBool true)
| t_false : text_of (chars "false") (JBool false)
| t_num raw neg m e : numeral raw neg m e → text_of raw (JNum neg m e)
| t_str raw s : quoted raw s → text_of raw (JStr s)
| t_arr0 w : blanks w → text_of (chars "[" ++ w ++ chars "]") (JArr [])
| t_arr raw l : items raw l → text_of (chars "[" ++ raw ++ chars "]") (JArr l)
| t_obj0 w : blanks w → text_of (chars "{" ++ w ++ chars "}") (JObj [])
| t_obj raw m : members raw m → text_of (chars "{" ++ raw ++ chars "}") (JObj m)
with items : list ascii → list json → Prop :=
| e_one w1 raw w2 j : blanks w1 → text_of raw j → blanks w2 → items (w1 ++ raw ++ w2) [j]
| e_more w1 raw w2 j rest l : blanks w1 → text_of raw j → blanks w2 → items rest l →
    items (w1 ++ raw ++ w2 ++ chars "," ++ rest) (j :: l)
with members : list ascii → list (string * json) → Prop :=
| m_one w1 name w2 w3 raw w4 k j : blanks w1 → quoted name k → blanks w2 → blanks w3 → text_of raw j → blanks w4 →
    members (w1 ++ name ++ w2 ++ chars ":" ++ w3 ++ raw ++ w4) [(k, j)]
| m_more w1 name w2 w3 raw w4 k j rest m : blanks w1 → quoted name k → blanks w2 → blanks w3 → text_of raw j → blanks w4 →
    members rest m → members (w1 ++ name ++ w2 ++ chars ":" ++ w3 ++ raw ++ w4 ++ chars "," ++ rest) ((k, j) :: m).

Definition document (text : list ascii) (j : json) : Prop :=
  ∃ w1 raw w2, text = w1 ++ raw ++ w2 ∧ blanks w1 ∧ text_of raw j ∧ blanks w2.

Scheme text_of_min := Minimality for text_of Sort Prop
  with items_min := Minimality for items Sort Prop
  with members_min := Minimality for members Sort Prop.
Combined Scheme text_mutind from text_of_min, items_min, members_min.
