(** * The generator's texts: more of C67 and C68.

    [descriptionToComment lib indent desc]: the comment made of [desc]; [wrap lib]: the
    wrapping function.  [goTypeName]: the Go name made of a name.  [alnum c]: an ASCII letter
    or digit; [code c]: the byte. *)
From Verif Require Import GenNames GenProps.
From Coq Require Import Lia.
Local Open Scope nat_scope.

(** ** The width of comments *)
Lemma untab_length n l : (length (untab n l) = length l + 3 * min n (length (List.filter (λ c, Ascii.eqb c tab) l)))%nat.
Proof.
  revert n. induction l as [|c l IH]; intros [|n]; try reflexivity; cbn [untab length List.filter]; [cbn [Nat.min]; lia|].
  destruct (Ascii.eqb c tab); cbn [length app]; [|rewrite IH; lia]. change (length (txt "    " ++ untab n l)) with (4 + length (untab n l))%nat. rewrite IH. cbn [Nat.min]. lia.
Qed.
(** What a comment is made of is the description wrapped at 76 less the columns of the
    indentation, where a tab is four, but only the first four are (after that it is one). *)
Theorem C67_wrapped_at : ∀ lib lib' indent desc columns,
  columns = (length indent + 3 * Nat.min 4 (length (List.filter (λ c, Ascii.eqb c tab) indent)))%nat → columns ≤ 76 →
  wrap lib desc (76 - Z.of_nat columns) = wrap lib' desc (76 - Z.of_nat columns) →
  descriptionToComment lib indent desc = descriptionToComment lib' indent desc.
Proof.
  intros lib lib' indent desc columns Hc Hle H. unfold descriptionToComment.
  assert (text_width indent = 76 - Z.of_nat columns)%Z as ->; [|by rewrite H].
  unfold text_width. rewrite app_length, untab_length. change (length (txt " // ")) with 4. rewrite <- Hc.
  rewrite Z.mod_small; [lia|]. split; [lia|]. apply Z.le_lt_trans with 76%Z; [lia|reflexivity].
Qed.
Print Assumptions C67_wrapped_at.
(** Finding: behind a wider indentation it is not wrapped at all (the width is taken to be
    that much below 2^64). *)
Theorem C67_wide_indent_refuted : ∀ lib lib' indent desc columns,
  columns = (length indent + 3 * Nat.min 4 (length (List.filter (λ c, Ascii.eqb c tab) indent)))%nat → 76 < columns → (Z.of_nat columns < 2 ^ 63)%Z →
  wrap lib desc (2 ^ 64 + 76 - Z.of_nat columns) = wrap lib' desc (2 ^ 64 + 76 - Z.of_nat columns) →
  descriptionToComment lib indent desc = descriptionToComment lib' indent desc.
Proof.
  intros lib lib' indent desc columns Hc Hlt Hb H. unfold descriptionToComment.
  assert (text_width indent = 2 ^ 64 + 76 - Z.of_nat columns)%Z as ->; [|by rewrite H].
  unfold text_width. rewrite app_length, untab_length. change (length (txt " // ")) with 4. rewrite <- Hc.
  symmetry. apply (Z.mod_unique_pos _ _ (-1)); [|lia]. change (2 ^ 63)%Z with (2 ^ 62 * 2)%Z in Hb. change (2 ^ 64)%Z with (2 ^ 62 * 4)%Z.
  assert (0 < 2 ^ 62)%Z by reflexivity. remember (2 ^ 62)%Z as k eqn:Ek. split; [|lia]. lia.
Qed.
Print Assumptions C67_wide_indent_refuted.

(** ** Go names of any words *)
Lemma title_lookup start l i c : l !! i = Some c →
  title start l !! i = Some (if match i with 0 => start | S j => match l !! j with Some d => negb (word_char d) | None => false end end then upper c else c).
Proof.
  revert start i. induction l as [|x l IH]; intros start [|i] H; try done; cbn [title lookup list_lookup] in *; [injection H as ->; by destruct start|].
  etrans; [exact (IH _ _ H)|]. destruct i as [|i]; [done|]. done.
Qed.
Lemma title_length start l : length (title start l) = length l.
Proof. revert start. induction l as [|x l IH]; intros start; [done|]. cbn [title length]. by rewrite IH. Qed.
Lemma word_byte c : c ∉ txt "._@" → word_char c = alnum c || (128 <=? code c).
Proof.
  intros Hc. pose proof (every_ascii (λ c, implb (negb (bool_decide (c ∈ txt "._@"))) (Bool.eqb (word_char c) (alnum c || (128 <=? code c))))) as H.
  specialize (H ltac:(vm_compute; reflexivity) c). cbv beta in H. rewrite bool_decide_false in H by done. by apply Bool.eqb_prop in H.
Qed.
Lemma sep_dec c : isSeparator c = true ↔ c ∈ txt "._@".
Proof.
  pose proof (every_ascii (λ c, Bool.eqb (isSeparator c) (bool_decide (c ∈ txt "._@")))) as H. specialize (H ltac:(vm_compute; reflexivity) c). cbv beta in H.
  apply Bool.eqb_prop in H. rewrite H. apply bool_decide_eq_true.
Qed.
(** In a word that is no abbreviation, the first letter is raised, and every letter after a
    byte that is neither a letter nor a digit; all else is left as it is (ASCII, as the model
    of strings.Title). *)
Theorem C68_inside_words : ∀ w, Forall (λ c, c ∉ txt "._@" ∧ code c < 128) w →
  map lower w ∉ map txt ["id"; "ppid"; "pid"; "pgid"; "mac"; "ip"; "iana"; "uid"; "ecs"; "as"; "icmp"] →
  length (goTypeName w) = length w ∧
  (∀ c, w !! 0 = Some c → goTypeName w !! 0 = Some (upper c)) ∧
  (∀ i d c, w !! i = Some d → w !! S i = Some c → goTypeName w !! S i = Some (if alnum d then c else upper c)).
Proof.
  intros w Hw Ha. assert (goTypeName w = title true w) as ->.
  { unfold goTypeName. rewrite fields_word.
    2:{ eapply Forall_impl; [exact Hw|]. intros x [Hx _]. cbv beta. apply not_true_is_false. by rewrite sep_dec. }
    cbn [rev app]. destruct w as [|c w]; [done|]. cbn [map concat]. rewrite app_nil_r. unfold abbreviations. by rewrite bool_decide_false. }
  rewrite Forall_forall in Hw. split; [apply title_length|]. split.
  - intros c Hc. by rewrite (title_lookup _ _ _ _ Hc).
  - intros i d c Hd Hc. rewrite (title_lookup _ _ _ _ Hc), Hd. destruct (Hw d) as [Hs Hl]; [by eapply elem_of_list_lookup_2|].
    rewrite word_byte by done. rewrite (proj2 (Nat.leb_gt _ _) Hl), orb_false_r. by destruct (alnum d).
Qed.
Print Assumptions C68_inside_words.

(** Cases. *)
Example C67_wrapped_at_ex : let indent := [tab; " "%char; tab; tab; tab; tab] in
  (length indent + 3 * Nat.min 4 (length (List.filter (λ c, Ascii.eqb c tab) indent)) = 18)%nat ∧
  descriptionToComment (mkLib (λ d n, if (n =? 58)%Z then txt "a" else d) id) indent (txt "b") = Some (txt "a").
Proof. split; vm_compute; reflexivity. Qed.
Example C67_wide_indent_ex : let indent := repeat " "%char 77 in
  descriptionToComment (mkLib (λ d n, if (n =? 2 ^ 64 - 1)%Z then txt "a" else d) id) indent (txt "b") = Some (txt "a").
Proof. vm_compute; reflexivity. Qed.
Example C68_inside_words_ex : goTypeName (txt "tcp-port x1y") = txt "Tcp-Port X1y" ∧
  Forall (λ c, c ∉ txt "._@" ∧ code c < 128) (txt "tcp-port x1y").
Proof. split; [vm_compute; reflexivity|]. apply (bool_decide_unpack _). vm_compute. exact I. Qed.
