(** * What the generators write. *)
From Verif Require Export Gen.
From Coq Require Import Lia.
Local Open Scope nat_scope.

(** ** The scanner on a text that fits its first buffer *)
Definition body (ls : list (list ascii)) : list ascii := concat (map (λ l, l ++ [nl]) ls).
Definition advance (s : scanner) (n : nat) : scanner :=
  mkSc (s_old s) (s_buf s) (s_start s + n) (s_end s) (s_eof s) (s_in s) (s_chunks s).
Fixpoint line_slices (b off : nat) (ls : list (list ascii)) : list (slice * list ascii) :=
  match ls with
  | [] => []
  | l :: ls' => (mkSlice b off (length (dropCR l)), dropCR l) :: line_slices b (off + S (length l)) ls'
  end.
Definition prepend (ts : list (slice * list ascii)) (r : option (list (slice * list ascii) * scanner * bool)) :=
  match r with Some (l, s, long) => Some (ts ++ l, s, long) | None => None end.
Lemma index_nl_at a b : nl ∉ a → index_nl (a ++ nl :: b) = Some (length a).
Proof.
  induction a as [|c a IH]; intros Ha; cbn [app index_nl length].
  - by destruct (Ascii.eqb_spec nl nl).
  - apply not_elem_of_cons in Ha as [Hc Ha]. destruct (Ascii.eqb_spec c nl); [congruence|]. by rewrite IH.
Qed.
Lemma index_nl_absent a : nl ∉ a → index_nl a = None.
Proof.
  induction a as [|c a IH]; intros Ha; cbn [index_nl]; [done|]. apply not_elem_of_cons in Ha as [Hc Ha].
  destruct (Ascii.eqb_spec c nl); [congruence|]. by rewrite IH.
Qed.
Lemma held_advance s d rest : held s = d ++ rest → held (advance s (length d)) = rest.
Proof.
  intros H. assert (rest = drop (length d) (held s)) as -> by (by rewrite H, drop_app).
  unfold held, advance. cbn [s_start s_end s_buf]. rewrite skipn_firstn_comm, drop_drop. f_equal. lia.
Qed.
Lemma body_tokens ls : ∀ s rest fuel, Forall (nl ∉.) ls → sound s → held s = body ls ++ rest →
  scan_all (length ls + fuel) s = prepend (line_slices (length (s_old s)) (s_start s) ls) (scan_all fuel (advance s (length (body ls)))).
Proof.
  induction ls as [|l ls IH]; intros s rest fuel Hls Hs Hh.
  - cbn [length body concat map Nat.add line_slices prepend app]. unfold advance. rewrite Nat.add_0_r.
    destruct s; cbn. by destruct (scan_all fuel _) as [[[? ?] ?]|].
  - apply Forall_cons in Hls as [Hl Hls]. cbn [length Nat.add scan_all]. unfold turn.
    pose proof (held_length s Hs) as Hlen. pose proof Hs as (H1 & H2 & H3 & H4).
    assert (held s = l ++ nl :: (body ls ++ rest)) as Hh'.
    { rewrite Hh. unfold body. cbn [map concat]. by rewrite <- !app_assoc. }
    assert ((s_start s <? s_end s) = true) as ->.
    { apply Nat.ltb_lt. rewrite Hh', app_length in Hlen. cbn [length] in Hlen. lia. }
    cbn [orb]. unfold ScanLines. rewrite Hh' at 1. rewrite index_nl_at by done.
    assert (take (length l) (held s) = l) as -> by (by rewrite Hh', take_app).
    assert (length (l ++ [nl]) = S (length l)) as El by (rewrite app_length; cbn; lia).
    change (mkSc (s_old s) (s_buf s) (s_start s + S (length l)) (s_end s) (s_eof s) (s_in s) (s_chunks s)) with (advance s (S (length l))).
    rewrite <- El. rewrite (IH (advance s (length (l ++ [nl]))) rest fuel Hls).
    2:{ unfold sound, advance. cbn [s_start s_end s_buf s_in s_eof]. rewrite Hh', app_length in Hlen. cbn [length] in Hlen. rewrite El.
        split; [lia|]. split; [lia|]. split; [lia|]. intros He. destruct (H4 He). split; [assumption|lia]. }
    2:{ apply held_advance. by rewrite Hh', <- app_assoc. }
    cbn [line_slices]. rewrite <- El.
    assert (bytes_of (buffers (advance s (length (l ++ [nl])))) (mkSlice (length (s_old s)) (s_start s) (length (dropCR l))) = dropCR l) as ->.
    { change (buffers (advance s (length (l ++ [nl])))) with (buffers s). rewrite (bytes_now s (length (dropCR l)) _ eq_refl).
      - rewrite Hh', take_app_le by apply dropCR_len. apply dropCR_take.
      - rewrite Hh', app_length in Hlen. pose proof (dropCR_len l). lia. }
    assert (advance (advance s (length (l ++ [nl]))) (length (body ls)) = advance s (length (body (l :: ls)))) as ->.
    { unfold advance, body. cbn [s_old s_buf s_start s_end s_eof s_in s_chunks map concat]. rewrite (app_length (l ++ [nl])). f_equal. lia. }
    change (s_old (advance s (length (l ++ [nl])))) with (s_old s). change (s_start (advance s (length (l ++ [nl])))) with (s_start s + length (l ++ [nl])).
    destruct (scan_all fuel _) as [[[? ?] ?]|]; [|done]. reflexivity.
Qed.
Lemma buffers_advance s n : buffers (advance s n) = buffers s.
Proof. done. Qed.
Definition moved (s : scanner) : bool := (0 <? s_start s) && (length (s_buf s) / 2 <? s_start s).
Lemma ScanLines_eof l : nl ∉ l → l ≠ [] → ScanLines l true = Some (length l, length (dropCR l)).
Proof. intros Hl Hne. unfold ScanLines. rewrite index_nl_absent by done. by destruct l. Qed.
Lemma eof_tokens last : ∀ s fuel, nl ∉ last → sound s → held s = last → s_eof s = true → 1 + (match last with [] => 0 | _ => 1 end) ≤ fuel →
  ∃ s', buffers s' = buffers s ∧
    scan_all fuel s = Some (match last with [] => [] | _ :: _ => [(mkSlice (length (s_old s)) (s_start s) (length (dropCR last)), dropCR last)] end, s', false).
Proof.
  intros s fuel Hl Hs Hh He Hf. pose proof (held_length s Hs) as Hlen. pose proof Hs as (H1 & H2 & H3 & H4). destruct (H4 He) as [Hi _].
  destruct last as [|c last].
  - destruct fuel as [|fuel]; [lia|]. cbn [scan_all]. unfold turn. rewrite He, orb_true_r, Hh. cbn. by exists s.
  - destruct fuel as [|[|fuel]]; [lia|lia|]. remember (c :: last) as l eqn:El. cbn [scan_all]. unfold turn. rewrite He, orb_true_r, Hh.
    rewrite (ScanLines_eof l Hl) by (by rewrite El).
    set (s' := mkSc _ _ _ _ _ _ _).
    assert (held s' = []) as Hh'.
    { assert (s' = advance s (length l)) as -> by (unfold s', advance; by rewrite He). apply (held_advance s l []). by rewrite app_nil_r. }
    change (s_eof s') with true. rewrite orb_true_r, Hh'. cbn [ScanLines index_nl].
    exists s'. split; [done|]. change (buffers s') with (buffers s).
    rewrite (bytes_now s (length (dropCR l)) _ eq_refl).
    + rewrite Hh, dropCR_take. by rewrite El.
    + rewrite Hh in Hlen. rewrite <- Hlen. apply dropCR_len.
Qed.
Lemma last_tokens last : ∀ s fuel, nl ∉ last → sound s → held s = last → s_in s = [] → s_eof s = false → s_end s < length (s_buf s) →
  2 + (match last with [] => 0 | _ => 1 end) ≤ fuel →
  ∃ s', buffers s' = s_old s ++ [if moved s then overwrite (s_buf s) 0 last else s_buf s] ∧
    scan_all fuel s = Some (match last with [] => [] | _ => [(mkSlice (length (s_old s)) (if moved s then 0 else s_start s) (length (dropCR last)), dropCR last)] end, s', false).
Proof.
  intros s fuel Hl Hs Hh Hi He Hroom Hf. destruct fuel as [|fuel]; [lia|]. cbn [scan_all]. unfold turn.
  assert (shift s = if moved s then mkSc (s_old s) (overwrite (s_buf s) 0 (held s)) 0 (s_end s - s_start s) (s_eof s) (s_in s) (s_chunks s) else s) as Esh.
  { unfold shift, moved. destruct (Nat.eqb_spec (s_end s) (length (s_buf s))); [lia|]. done. }
  assert ((if (s_start s <? s_end s) || s_eof s then ScanLines (held s) (s_eof s) else None) = None) as ->.
  { rewrite He. unfold ScanLines. rewrite Hh, index_nl_absent by done. by destruct (_ || _). }
  rewrite He. pose proof (held_length s Hs) as Hlen.
  destruct (shift_spec s Hs) as (B1 & B2 & B3 & B4 & B5 & B6).
  assert (s_end (shift s) < length (s_buf (shift s))) as Hroom'.
  { rewrite Esh. destruct (moved s); [|done]. cbn [s_end s_buf]. destruct Hs as (H1 & H2 & _). rewrite overwrite_length; lia. }
  assert (resize (shift s) = Some (shift s)) as ->.
  { unfold resize. destruct (Nat.eqb_spec (s_end (shift s)) (length (s_buf (shift s)))); [lia|done]. }
  destruct (fill_spec (shift s) B1) as (F1 & F2 & F3); [congruence|done|].
  assert (fill (shift s) = mkSc (s_old (shift s)) (s_buf (shift s)) (s_start (shift s)) (s_end (shift s)) true [] (s_chunks (shift s))) as Ef.
  { unfold fill. by rewrite B3, Hi. }
  rewrite Ef in *. clear Ef.
  destruct (eof_tokens last _ fuel Hl F1) as (s' & Hb & Hr).
  { unfold held. cbn [s_start s_end s_buf]. change (held (shift s) = last). congruence. } { done. } { lia. }
  exists s'. split.
  - rewrite Hb. unfold buffers. cbn [s_old s_buf]. rewrite Esh. destruct (moved s); [|done]. cbn [s_old s_buf]. by rewrite Hh.
  - rewrite Hr. cbn [s_old s_start]. rewrite Esh. by destruct (moved s).
Qed.

(** ** trimTrailingWhitespace on a text of less than 4096 bytes *)
(** [t] read in pieces as long as the trimmed lines [ls], a line's length apart. *)
Fixpoint read_lines (t : list ascii) (ls : list (list ascii)) : list (list ascii) :=
  match ls with
  | [] => []
  | l :: ls' => take (length (trim_right l)) t :: read_lines (drop (S (length l)) t) ls'
  end.
Lemma trim_right_split l : ∃ a, Forall (.∈ spaces) a ∧ l = trim_right l ++ concat a ∧ ∀ p r, p ∈ spaces → trim_right l ≠ r ++ p.
Proof.
  unfold trim_right. destruct (strip_split _ (proj2 spaces_nonempty) (length l) (rev l)) as (b & Hb & Hu & Hn2).
  { by rewrite rev_length. }
  set (v := strip _ _ _) in *. exists (map (@rev ascii) (rev b)). split_and!.
  - apply Forall_forall. intros x Hx. apply elem_of_list_fmap in Hx as (y & -> & Hy).
    rewrite Forall_forall in Hb. specialize (Hb y). apply elem_of_list_In, in_rev, elem_of_list_In in Hy.
    specialize (Hb Hy). apply elem_of_list_fmap in Hb as (z & -> & Hz). by rewrite rev_involutive.
  - rewrite <- concat_rev, <- rev_app_distr, <- Hu. by rewrite rev_involutive.
  - intros p r Hp Hv. apply (Hn2 (rev p) (rev r)); [by apply elem_of_list_fmap; exists p|].
    by rewrite <- rev_app_distr, <- Hv, rev_involutive.
Qed.
Lemma trim_right_unique l t a : Forall (.∈ spaces) a → l = t ++ concat a → (∀ p r, p ∈ spaces → t ≠ r ++ p) → trim_right l = t.
Proof.
  intros Ha -> Hn. unfold trim_right. rewrite rev_app_distr, concat_rev.
  rewrite (strip_concat _ strip_space_rev (proj2 spaces_nonempty) (map (@rev ascii) (rev a)) (rev t)); [by rewrite rev_involutive|by apply rev_spaces| |].
  - intros p r Hp Ht. apply elem_of_list_fmap in Hp as (q & -> & Hq). apply (Hn q (rev r)); [done|].
    rewrite <- (rev_involutive t), Ht, rev_app_distr. by rewrite rev_involutive.
  - rewrite <- concat_rev, !app_length, !rev_length. lia.
Qed.
Lemma cr_space : [cr] ∈ spaces.
Proof. apply (bool_decide_eq_true_1 _). vm_compute. reflexivity. Qed.
Lemma trim_right_dropCR l : trim_right (dropCR l) = trim_right l.
Proof.
  unfold dropCR. destruct (rev l) as [|c r] eqn:E; [done|].
  assert (l = rev r ++ [c]) as Hl by (rewrite <- (rev_involutive l), E; done).
  destruct (Ascii.eqb_spec c cr) as [->|]; [|done].
  destruct (trim_right_split (rev r)) as (a & Ha & Hr & Hn). symmetry. apply (trim_right_unique l _ (a ++ [[cr]])); [| |done].
  - apply Forall_app. split; [done|]. apply List.Forall_cons; [apply cr_space|apply List.Forall_nil].
  - rewrite Hl, concat_app, app_assoc, <- Hr. done.
Qed.
Lemma trim_right_len l : length (trim_right l) ≤ length l.
Proof. destruct (trim_right_split l) as (a & _ & Hl & _). rewrite Hl at 2. rewrite app_length. lia. Qed.
Lemma trim_right_take l : take (length (trim_right l)) l = trim_right l.
Proof. destruct (trim_right_split l) as (a & _ & Hl & _). rewrite Hl at 2. by rewrite take_app. Qed.
Lemma body_cons l ls : body (l :: ls) = l ++ nl :: body ls.
Proof. unfold body. cbn [map concat]. by rewrite <- app_assoc. Qed.
Lemma slices_read old buf ls : ∀ off,
  map (λ tok, bytes_of (old ++ [buf]) (kept tok)) (line_slices (length old) off ls) = read_lines (drop off buf) ls.
Proof.
  induction ls as [|l ls IH]; intros off; cbn [line_slices map read_lines]; [done|].
  rewrite IH, drop_drop. f_equal. unfold bytes_of, kept. cbn [sl_buf sl_off sl_len fst snd].
  rewrite lookup_app_r, Nat.sub_diag by done. cbn [lookup list_lookup default]. by rewrite trim_right_dropCR.
Qed.
Lemma read_lines_app ls : ∀ t z, length (body ls) ≤ length t → read_lines (t ++ z) ls = read_lines t ls.
Proof.
  induction ls as [|l ls IH]; intros t z Hlen; cbn [read_lines]; [done|].
  rewrite body_cons, app_length in Hlen. cbn [length] in Hlen. pose proof (trim_right_len l).
  rewrite take_app_le by lia. rewrite drop_app_le by lia. rewrite IH; [done|]. rewrite drop_length. lia.
Qed.
Lemma read_lines_own ls : ∀ z, read_lines (body ls ++ z) ls = map trim_right ls.
Proof.
  induction ls as [|l ls IH]; intros z; cbn [read_lines map]; [done|]. rewrite body_cons, <- app_assoc.
  rewrite take_app_le by apply trim_right_len. rewrite trim_right_take. f_equal.
  cbn [app]. assert (drop (S (length l)) (l ++ nl :: body ls ++ z) = body ls ++ z) as ->; [|by apply IH].
  rewrite (cons_middle nl l), app_assoc. rewrite drop_app_alt; [done|]. rewrite app_length. cbn. lia.
Qed.
Lemma body_length ls : length ls ≤ length (body ls).
Proof. induction ls as [|l ls IH]; [done|]. rewrite body_cons, app_length. cbn [length]. lia. Qed.
Definition last_line (last : list ascii) : list (list ascii) := match last with [] => [] | _ => [trim_right last] end.
Lemma trim_short ls last : Forall (nl ∉.) ls → nl ∉ last → length (body ls ++ last) < startBuf →
  trimTrailingWhitespace (body ls ++ last) =
  Some (join [nl] (read_lines (if startBuf / 2 <? length (body ls) then overwrite (body ls ++ last) 0 last else body ls ++ last) ls ++ last_line last)).
Proof.
  intros Hls Hlast Hlen. unfold trimTrailingWhitespace, scan_buffered. set (T := body ls ++ last) in *.
  assert (0 < startBuf ∧ startBuf ≤ maxTok) as [Hpos Hmax] by (pose proof startBuf_Z; pose proof maxTok_Z; lia).
  assert (scan_fuel (newScanner T []) = S (2 * length T + 1)) as -> by (unfold scan_fuel, newScanner; cbn [s_in s_end s_start s_eof]; lia).
  cbn [scan_all]. unfold turn at 1. change ((s_start (newScanner T []) <? s_end (newScanner T [])) || s_eof (newScanner T [])) with false.
  change (s_eof (newScanner T [])) with false. change (shift (newScanner T [])) with (newScanner T []). cbv beta iota.
  assert (resize (newScanner T []) = Some (mkSc [[]] (replicate startBuf zero) 0 0 false T [])) as ->.
  { unfold resize, newScanner. cbn [s_end s_buf length s_old s_start s_eof s_in s_chunks]. rewrite Nat.eqb_refl.
    destruct (Nat.leb_spec maxTok 0); [lia|]. cbv zeta. f_equal. }
  cbv beta iota.
  assert (length (replicate startBuf zero) = startBuf) as Hrep by apply replicate_length.
  set (z := replicate (startBuf - length T) zero).
  destruct (decide (T = [])) as [ET|ET].
  - assert (body ls = [] ∧ last = []) as [Eb El] by (apply app_eq_nil; exact ET). subst last.
    assert (ls = []) as -> by (destruct ls; [done|]; rewrite body_cons in Eb; by destruct l).
    rewrite ET. change (fill (mkSc [[]] (replicate startBuf zero) 0 0 false [] [])) with (mkSc [[]] (replicate startBuf zero) 0 0 true [] []).
    destruct (eof_tokens [] (mkSc [[]] (replicate startBuf zero) 0 0 true [] []) (2 * length (@nil ascii) + 1)) as (s' & _ & Hr).
    { apply not_elem_of_nil. } { unfold sound. cbn [s_start s_end s_buf s_eof s_in]. rewrite Hrep. split; [lia|]. split; [lia|]. split; [lia|]. intros _. split; [done|lia]. }
    { done. } { done. } { cbn. lia. }
    rewrite Hr. done.
  - assert (fill (mkSc [[]] (replicate startBuf zero) 0 0 false T []) = mkSc [[]] (T ++ z) 0 (length T) false [] []) as ->.
    { unfold fill. cbn [s_in s_buf s_end s_old s_start s_chunks]. rewrite Hrep, Nat.sub_0_r. rewrite take_ge by lia. rewrite drop_ge by lia.
      destruct T as [|c T']; [done|]. cbn [tail Nat.add]. f_equal. unfold overwrite. rewrite take_0. cbn [app]. rewrite drop_replicate. cbn [Nat.add]. done. }
    assert (1 ≤ length T) as HT1 by (destruct T; [done|cbn; lia]). clear ET.
    set (s1 := mkSc [[]] (T ++ z) 0 (length T) false [] []).
    assert (length (T ++ z) = startBuf) as Hbuf by (rewrite app_length; unfold z; rewrite replicate_length; lia).
    assert (sound s1) as Hs1.
    { unfold sound, s1. cbn [s_start s_end s_buf s_eof s_in]. rewrite Hbuf. split; [lia|]. split; [lia|]. split; [lia|]. discriminate. }
    assert (held s1 = body ls ++ last) as Hh1.
    { unfold held, s1. cbn [s_start s_end s_buf]. rewrite Nat.sub_0_r, drop_0, take_app. reflexivity. }
    assert (length T = length (body ls) + length last) as HT by (unfold T; apply app_length).
    assert (∃ f, 2 * length T + 1 = length ls + f ∧ 2 + (match last with [] => 0 | _ => 1 end) ≤ f) as (f & -> & Hf).
    { exists (2 * length T + 1 - length ls). pose proof (body_length ls). destruct last; cbn [length] in *; lia. }
    rewrite (body_tokens ls s1 last f Hls Hs1 Hh1).
    destruct (last_tokens last (advance s1 (length (body ls))) f Hlast) as (s' & Hb & Hr).
    { destruct Hs1 as (S1 & S2 & S3 & S4). unfold sound, advance, s1. cbn [s_start s_end s_buf s_eof s_in]. rewrite Hbuf.
      split; [lia|]. split; [lia|]. split; [lia|]. discriminate. }
    { by apply held_advance. } { reflexivity. } { reflexivity. } { unfold advance, s1. cbn [s_end s_buf]. rewrite Hbuf. exact Hlen. } { exact Hf. }
    rewrite Hr. cbn [prepend]. f_equal. f_equal. rewrite map_app. rewrite Hb.
    change (s_old (advance s1 (length (body ls)))) with [@nil ascii]. change (s_buf (advance s1 (length (body ls)))) with (T ++ z).
    change (s_start (advance s1 (length (body ls)))) with (length (body ls)). change (s_old s1) with [@nil ascii]. change (s_start s1) with 0.
    assert (moved (advance s1 (length (body ls))) = (startBuf / 2 <? length (body ls))) as ->.
    { unfold moved, advance, s1. cbn [s_start s_buf]. rewrite Hbuf. cbn [Nat.add]. destruct (Nat.ltb_spec 0 (length (body ls))) as [|H0]; [done|].
      destruct (Nat.ltb_spec (startBuf / 2) (length (body ls))); [lia|done]. }
    rewrite slices_read. rewrite drop_0.
    set (m := startBuf / 2 <? length (body ls)).
    assert ((if m then overwrite (T ++ z) 0 last else T ++ z) = (if m then overwrite T 0 last else T) ++ z) as Em.
    { destruct m; [|done]. unfold overwrite. rewrite !take_0. cbn [app Nat.add]. rewrite drop_app_le by lia. by rewrite <- app_assoc. }
    assert (length (if m then overwrite T 0 last else T) = length T) as Elen.
    { destruct m; [|done]. apply overwrite_length. lia. }
    rewrite Em. f_equal.
    + apply read_lines_app. rewrite Elen. lia.
    + destruct last as [|c last]; [done|]. remember (c :: last) as l eqn:El.
      cbn [map]. rewrite <- (app_nil_l []) at 1.
      assert (last_line l = [trim_right l]) as -> by (by rewrite El). f_equal.
      unfold bytes_of, kept. cbn [sl_buf sl_off sl_len fst snd].
      assert (∀ x : list ascii, default [] (([[]] ++ [x]) !! length [@nil ascii]) = x) as Hd by done. rewrite Hd, trim_right_dropCR. pose proof (trim_right_len l).
      destruct m.
      * rewrite drop_0. unfold overwrite. rewrite take_0. cbn [app]. rewrite <- app_assoc. rewrite take_app_le by done. apply trim_right_take.
      * unfold T. rewrite <- app_assoc, drop_app. rewrite take_app_le by done. apply trim_right_take.
Qed.

(** ** Lines *)
Lemma split_nl_nonempty l : split_nl l ≠ [].
Proof. destruct l as [|c l]; cbn [split_nl]; [done|]. destruct (Ascii.eqb c nl); [done|]. by destruct (split_nl l). Qed.
Lemma split_nl_free l : Forall (nl ∉.) (split_nl l).
Proof.
  induction l as [|c l IH]; cbn [split_nl].
  - apply List.Forall_cons; [apply not_elem_of_nil|apply List.Forall_nil].
  - destruct (Ascii.eqb_spec c nl) as [->|Hne]; [apply List.Forall_cons; [apply not_elem_of_nil|done]|].
    destruct (split_nl l) as [|x xs].
    + apply List.Forall_cons; [|apply List.Forall_nil]. apply not_elem_of_cons. split; [congruence|apply not_elem_of_nil].
    + apply Forall_cons in IH as [Hx Hxs]. apply List.Forall_cons; [|done]. apply not_elem_of_cons. split; [congruence|done].
Qed.
Lemma split_nl_line a b : nl ∉ a → split_nl (a ++ nl :: b) = a :: split_nl b.
Proof.
  induction a as [|c a IH]; intros Ha; cbn [app split_nl].
  - by destruct (Ascii.eqb_spec nl nl).
  - apply not_elem_of_cons in Ha as [Hc Ha]. destruct (Ascii.eqb_spec c nl); [congruence|]. by rewrite IH.
Qed.
Lemma split_nl_single a : nl ∉ a → split_nl a = [a].
Proof.
  induction a as [|c a IH]; intros Ha; cbn [split_nl]; [done|]. apply not_elem_of_cons in Ha as [Hc Ha].
  destruct (Ascii.eqb_spec c nl); [congruence|]. by rewrite IH.
Qed.
Lemma join_cons sep l l' ls : join sep (l :: l' :: ls) = l ++ sep ++ join sep (l' :: ls).
Proof. done. Qed.
Lemma split_nl_join ls : ls ≠ [] → Forall (nl ∉.) ls → split_nl (join [nl] ls) = ls.
Proof.
  induction ls as [|l ls IH]; intros Hne Hls; [done|]. apply Forall_cons in Hls as [Hl Hls]. destruct ls as [|l' ls].
  - by apply split_nl_single.
  - rewrite join_cons. cbn [app]. rewrite split_nl_line by done. by rewrite IH.
Qed.
Lemma join_split_nl l : join [nl] (split_nl l) = l.
Proof.
  induction l as [|c l IH]; cbn [split_nl]; [done|]. pose proof (split_nl_nonempty l) as Hne.
  destruct (split_nl l) as [|x xs]; [done|]. destruct (Ascii.eqb_spec c nl) as [->|Hc].
  - rewrite join_cons. by rewrite IH.
  - destruct xs as [|y ys]; [cbn in *; by rewrite IH|]. rewrite join_cons in *. cbn [app] in *. by rewrite IH.
Qed.
Lemma split_nl_app a b : split_nl (a ++ nl :: b) = split_nl a ++ split_nl b.
Proof.
  rewrite <- (join_split_nl a) at 1. pose proof (split_nl_free a) as Hf. pose proof (split_nl_nonempty a) as Hne.
  induction (split_nl a) as [|l ls IH]; [done|]. apply Forall_cons in Hf as [Hl Hls]. destruct ls as [|l' ls].
  - cbn [join]. by rewrite split_nl_line.
  - rewrite join_cons, <- !app_assoc. cbn [app]. rewrite split_nl_line by done. by rewrite IH.
Qed.
Lemma join_body xs x : join [nl] (xs ++ [x]) = body xs ++ x.
Proof.
  induction xs as [|y xs IH]; [done|]. cbn [app]. rewrite body_cons, <- app_assoc. cbn [app]. rewrite <- IH. by destruct xs.
Qed.
Lemma join_prefix p l ls : join (nl :: p) (l :: ls) = join [nl] (l :: map (app p) ls).
Proof.
  revert l. induction ls as [|l' ls IH]; intros l; [done|]. rewrite join_cons, IH. cbn [map]. rewrite join_cons. cbn [app].
  destruct ls as [|l'' ls]; [done|]. cbn [map]. rewrite !join_cons, <- !app_assoc. done.
Qed.
(** The lines of a comment before trimming. *)
Definition comment_lines (indent : list ascii) (ls : list (list ascii)) : list (list ascii) :=
  match ls with [] => [] | l :: ls' => l :: map (app (indent ++ txt "// ")) ls' end.
Lemma comment_text indent ls : join (nl :: indent ++ txt "// ") ls = join [nl] (comment_lines indent ls).
Proof. destruct ls; [done|]. apply join_prefix. Qed.
Lemma slashes_free : nl ∉ txt "// ".
Proof. apply (bool_decide_eq_true_1 _). vm_compute. reflexivity. Qed.
Lemma comment_lines_free indent ls : nl ∉ indent → Forall (nl ∉.) ls → Forall (nl ∉.) (comment_lines indent ls).
Proof.
  intros Hi Hls. destruct ls as [|l ls]; [apply List.Forall_nil|]. apply Forall_cons in Hls as [Hl Hls]. apply List.Forall_cons; [done|].
  apply Forall_forall. intros x Hx. apply elem_of_list_fmap in Hx as (y & -> & Hy). rewrite Forall_forall in Hls.
  rewrite !not_elem_of_app. split; [split; [done|apply slashes_free]|by apply Hls].
Qed.
Lemma last_view {A} (l : list A) : l = [] ∨ ∃ xs x, l = xs ++ [x].
Proof. induction l using rev_ind; [by left|right; eauto]. Qed.
Lemma last_comment_line indent ls xs x : comment_lines indent ls = xs ++ [x] → x = [] → xs = [].
Proof.
  destruct ls as [|l ls]; cbn [comment_lines]; [by destruct xs|]. destruct xs as [|y xs]; [done|]. cbn [app]. intros [= <- H] ->.
  destruct (last_view ls) as [->|(zs & z & ->)]; [by destruct xs|]. rewrite map_app in H. cbn [map] in H.
  apply app_inj_tail in H as [_ H]. apply app_eq_nil in H as [H _]. by destruct indent.
Qed.
Lemma comment_exact indent ls : nl ∉ indent → Forall (nl ∉.) ls → (Z.of_nat (length (join [nl] (comment_lines indent ls))) <= 2048)%Z →
  trimTrailingWhitespace (join [nl] (comment_lines indent ls)) = Some (join [nl] (map trim_right (comment_lines indent ls))).
Proof.
  intros Hi Hls Hlen. pose proof (comment_lines_free _ _ Hi Hls) as Hf. pose proof startBuf_Z as HZ.
  assert (startBuf / 2 = Z.to_nat 2048) as Hhalf. { symmetry. apply (Nat.div_unique startBuf 2 _ 0); lia. }
  destruct (last_view (comment_lines indent ls)) as [E|(xs & x & E)].
  - rewrite E. cbn [join map]. change (@nil ascii) with (body [] ++ []). rewrite trim_short; [done|apply List.Forall_nil|apply not_elem_of_nil|cbn; lia].
  - pose proof (last_comment_line _ _ _ _ E) as Hlast. rewrite E in *. apply Forall_app in Hf as [Hxs Hx]. apply Forall_cons in Hx as [Hx _].
    rewrite join_body in *. rewrite trim_short; [|done|done|lia]. rewrite app_length in Hlen.
    destruct (Nat.ltb_spec (startBuf / 2) (length (body xs))) as [Hl|_]; [lia|]. rewrite read_lines_own, map_app. f_equal. cbn [map].
    destruct x as [|c x]; [|done]. by rewrite (Hlast eq_refl).
Qed.

(** ** descriptionToComment on a short description *)
Definition newlines (w : list ascii) : nat := length (List.filter (Ascii.eqb nl) w).
(** The length of the comment text: each further line has the indentation and "// ". *)
Definition comment_size (indent w : list ascii) : nat := length w + newlines w * (length indent + 3).
Lemma join_length sep ls : length (join sep ls) = length (concat ls) + (length ls - 1) * length sep.
Proof.
  induction ls as [|l ls IH]; [done|]. destruct ls as [|l' ls].
  - cbn [join concat length]. rewrite app_nil_r. lia.
  - rewrite join_cons, !app_length, IH. cbn [concat length]. rewrite !app_length. lia.
Qed.
Lemma newlines_split w : length (split_nl w) = S (newlines w).
Proof.
  unfold newlines. induction w as [|c w IH]; cbn [split_nl List.filter]; [done|]. destruct (Ascii.eqb_spec c nl) as [->|Hne].
  - destruct (Ascii.eqb_spec nl nl); [|done]. cbn [length]. by rewrite IH.
  - destruct (Ascii.eqb_spec nl c); [congruence|]. rewrite <- IH. pose proof (split_nl_nonempty w). by destruct (split_nl w).
Qed.
Definition is_blank (l : list ascii) : Prop := ∃ ws, Forall white_space ws ∧ l = concat ws.
Lemma white_spaces_all ws : Forall white_space ws ↔ Forall (.∈ spaces) ws.
Proof. split; intros H; (eapply Forall_impl; [exact H|]); intros x Hx; by apply white_spaces. Qed.
Lemma blank_spec l : blank l = true ↔ is_blank l.
Proof.
  unfold blank, is_blank. pose proof (trim_trimmed l) as Ht. split.
  - destruct (trim l) eqn:E; [|done]. intros _. destruct Ht as ((a & b & Ha & Hb & Hl) & _). exists (a ++ b).
    split; [apply white_spaces_all; by apply Forall_app|]. by rewrite concat_app.
  - intros (ws & Hws & ->). apply white_spaces_all in Hws.
    rewrite (trimmed_trim (concat ws) []); [done|]. split; [|split].
    + exists ws, []. split; [done|]. split; [apply List.Forall_nil|]. cbn. by rewrite app_nil_r.
    + intros p r Hp. by apply starts_nothing.
    + intros p r Hp Hr. symmetry in Hr. apply app_eq_nil in Hr as [_ ->].
      pose proof (proj1 (Forall_forall _ _) (proj1 spaces_nonempty) _ Hp). done.
Qed.
(** The lines kept: all but a blank first one and then a blank last one. *)
Definition at_most_blank (ls : list (list ascii)) : Prop := ls = [] ∨ ∃ l, ls = [l] ∧ is_blank l.
(** [d]: a blank line dropped in front of, or after, [ls]; nothing if [l] is not blank. *)
Definition dropped (d : list (list ascii)) (l : option (list ascii)) : Prop :=
  match l with
  | None => d = []
  | Some l => (is_blank l ∧ d = [l]) ∨ (¬ is_blank l ∧ d = [])
  end.
Lemma dropped_at_most d l : dropped d l → at_most_blank d.
Proof. destruct l as [l|]; [intros [[Hl ->]|[_ ->]]|intros ->]; [right; by exists l|by left|by left]. Qed.
Lemma kept_lines_exact ls : ∃ a b, ls = a ++ drop_last (drop_first ls) ++ b ∧ dropped a (head ls) ∧ dropped b (last (drop_last (drop_first ls) ++ b)).
Proof.
  assert (∀ x, blank x = false → ¬ is_blank x) as Hnb. { intros x Hx H. apply blank_spec in H. by rewrite H in Hx. }
  assert (∀ ls, ∃ a, dropped a (head ls) ∧ ls = a ++ drop_first ls) as H1.
  { intros l. destruct l as [|x l]; [by exists []|]. cbn [drop_first head dropped]. destruct (blank x) eqn:E.
    - exists [x]. split; [|done]. left. split; [by apply blank_spec|done].
    - exists []. split; [|done]. right. split; [by apply Hnb|done]. }
  assert (∀ ls, ∃ b, dropped b (last ls) ∧ ls = drop_last ls ++ b) as H2.
  { intros l. unfold drop_last. destruct (rev l) as [|x r] eqn:Er.
    - exists []. assert (l = []) as -> by (rewrite <- (rev_involutive l), Er; done). done.
    - assert (l = rev r ++ [x]) as Hl by (rewrite <- (rev_involutive l), Er; done). rewrite Hl, last_snoc. cbn [dropped]. destruct (blank x) eqn:E.
      + exists [x]. split; [|done]. left. split; [by apply blank_spec|done].
      + exists []. split; [|by rewrite app_nil_r]. right. split; [by apply Hnb|done]. }
  destruct (H1 ls) as (a & Ha & Hl). destruct (H2 (drop_first ls)) as (b & Hb & Hl2). exists a, b. split; [by rewrite <- Hl2|]. split; [done|]. by rewrite <- Hl2.
Qed.
Lemma kept_lines ls : ∃ a b, at_most_blank a ∧ at_most_blank b ∧ ls = a ++ drop_last (drop_first ls) ++ b.
Proof.
  destruct (kept_lines_exact ls) as (a & b & Hl & Ha & Hb). exists a, b. split; [by eapply dropped_at_most|]. split; [by eapply dropped_at_most|done].
Qed.
Lemma comment_length indent w :
  length (join [nl] (comment_lines indent (drop_last (drop_first (split_nl w))))) ≤ comment_size indent w.
Proof.
  rewrite <- comment_text. destruct (kept_lines (split_nl w)) as (a & b & _ & _ & Hl). set (ls := drop_last _) in *. clearbody ls.
  pose proof (newlines_split w) as Hn. pose proof (f_equal length (join_split_nl w)) as Hw. rewrite join_length in Hw.
  rewrite Hl in Hn, Hw. rewrite !concat_app, !app_length in Hw. rewrite !app_length in Hn. rewrite join_length. unfold comment_size. cbn [length] in *. rewrite app_length.
  change (length (txt "// ")) with 3.
  assert (length ls - 1 ≤ newlines w) as Hm by lia.
  pose proof (Nat.mul_le_mono_r _ _ (S (length indent + 3)) Hm). lia.
Qed.
Lemma description_exact lib indent desc : nl ∉ indent →
  (Z.of_nat (comment_size indent (wrap lib desc (text_width indent))) <= 2048)%Z →
  descriptionToComment lib indent desc =
  Some (join [nl] (map trim_right (comment_lines indent (drop_last (drop_first (split_nl (wrap lib desc (text_width indent)))))))).
Proof.
  intros Hi Hlen. unfold descriptionToComment. rewrite comment_text. set (w := wrap lib desc _) in *. pose proof (comment_length indent w) as Hc.
  assert (Forall (nl ∉.) (drop_last (drop_first (split_nl w)))) as Hf.
  { pose proof (split_nl_free w) as Hw. destruct (kept_lines (split_nl w)) as (a & b & _ & _ & Hl). rewrite Hl in Hw.
    apply Forall_app in Hw as [_ Hw]. by apply Forall_app in Hw as [Hw _]. }
  apply comment_exact; [done|done|lia].
Qed.
Lemma trim_right_keeps c x y : c ∉ concat spaces → ∃ r, trim_right (x ++ c :: y) = x ++ c :: r.
Proof.
  intros Hc. destruct (trim_right_split (x ++ c :: y)) as (a & Ha & Hl & _). set (t := trim_right _) in *. clearbody t.
  assert (c ∉ concat a) as Hca.
  { intros Hin. apply elem_of_list_In, in_concat in Hin as (p & Hp & Hcp). apply Hc, elem_of_list_In, in_concat. exists p. split; [|done].
    rewrite Forall_forall in Ha. apply elem_of_list_In, Ha. by apply elem_of_list_In. }
  clear Ha. revert t Hl. induction x as [|d x IH]; intros t Hl; destruct t as [|e t]; cbn [app] in Hl.
  - exfalso. apply Hca. rewrite <- Hl. by left.
  - injection Hl as <- _. by exists t.
  - exfalso. apply Hca. rewrite <- Hl. right. apply in_middle.
  - injection Hl as <- Hl. destruct (IH t Hl) as [r ->]. by exists r.
Qed.
Lemma slash_visible : slash ∉ concat spaces.
Proof. apply (bool_decide_eq_true_1 _). vm_compute. reflexivity. Qed.
Definition slashes : list ascii := [slash; slash].
Lemma comment_line_kept indent y : ∃ r, trim_right ((indent ++ txt "// ") ++ y) = indent ++ slashes ++ r.
Proof.
  destruct (trim_right_keeps slash (indent ++ [slash]) (space :: y) slash_visible) as [r Hr]. exists r.
  unfold slashes. cbn [app]. rewrite <- !app_assoc in Hr. cbn [app] in Hr. rewrite <- app_assoc. exact Hr.
Qed.
Lemma trim_right_free l : nl ∉ l → nl ∉ trim_right l.
Proof. intros Hl Hin. destruct (trim_right_split l) as (a & _ & Ha & _). apply Hl. rewrite Ha. apply elem_of_app. by left. Qed.
(** Every line of the comment but the first starts with the indentation and "//". *)
Definition continues (indent c : list ascii) : Prop := ∀ a b, c = a ++ nl :: b → ∃ r, b = indent ++ slashes ++ r.
Lemma join_continues indent l ls : nl ∉ l → Forall (λ x, nl ∉ x ∧ ∃ r, x = indent ++ slashes ++ r) ls → continues indent (join [nl] (l :: ls)).
Proof.
  revert l. induction ls as [|x ls IH]; intros l Hl Hls a b Hab.
  - cbn [join] in Hab. exfalso. apply Hl. rewrite Hab. apply in_middle.
  - apply Forall_cons in Hls as [[Hx [r Hr]] Hls]. rewrite join_cons in Hab. cbn [app] in Hab.
    destruct (decide (nl ∈ a)) as [Ha|Ha].
    + apply elem_of_list_split in Ha as (a1 & a2 & ->).
      (* the first newline of [a] is the one after [l] *)
      destruct (IH x Hx Hls) with (a := drop (S (length l)) (a1 ++ nl :: a2)) (b := b) as [r' Hr']; [|by exists r'].
      assert (S (length l) ≤ length (a1 ++ nl :: a2)) as Hlen.
      { destruct (Nat.le_gt_cases (S (length l)) (length (a1 ++ nl :: a2))) as [|Hgt]; [done|]. exfalso. apply Hl.
        apply elem_of_list_lookup. exists (length a1). assert (length a1 < length l) as Hlt by (rewrite app_length in Hgt; cbn in Hgt; lia).
        rewrite <- (lookup_app_l l (nl :: join [nl] (x :: ls)) (length a1)) by done. rewrite Hab, <- app_assoc.
        rewrite lookup_app_r, Nat.sub_diag by done. done. }
      apply (f_equal (drop (S (length l)))) in Hab. rewrite (drop_app_le (a1 ++ nl :: a2)) in Hab by done.
      rewrite <- Hab. rewrite (cons_middle nl l), app_assoc, drop_app_alt; [done|]. rewrite app_length. cbn. lia.
    + destruct (split_at nl l a (join [nl] (x :: ls)) b Hl Ha Hab) as [_ <-].
      destruct ls as [|y ls]; [exists r; cbn [join]; exact Hr|]. rewrite join_cons, Hr. exists (r ++ [nl] ++ join [nl] (y :: ls)). by rewrite <- !app_assoc.
Qed.
Lemma description_continues lib indent desc c : nl ∉ indent →
  (Z.of_nat (comment_size indent (wrap lib desc (text_width indent))) <= 2048)%Z →
  descriptionToComment lib indent desc = Some c → continues indent c.
Proof.
  intros Hi Hlen. rewrite description_exact by done. intros [= <-]. set (w := wrap lib desc _) in *.
  assert (Forall (nl ∉.) (drop_last (drop_first (split_nl w)))) as Hf.
  { pose proof (split_nl_free w) as Hw. destruct (kept_lines (split_nl w)) as (a & b & _ & _ & Hl). rewrite Hl in Hw.
    apply Forall_app in Hw as [_ Hw]. by apply Forall_app in Hw as [Hw _]. }
  set (ls := drop_last _) in *. clearbody ls. destruct ls as [|l ls].
  - intros a b Hab. cbn in Hab. by destruct a.
  - apply Forall_cons in Hf as [Hl Hls]. cbn [comment_lines map]. apply join_continues; [by apply trim_right_free|].
    apply Forall_forall. intros x Hx. rewrite map_map in Hx. apply elem_of_list_fmap in Hx as (y & -> & Hy). split.
    + apply trim_right_free. rewrite !not_elem_of_app. rewrite Forall_forall in Hls. split; [split; [done|apply slashes_free]|by apply Hls].
    + apply comment_line_kept.
Qed.

(** ** The code in a generated file *)
(** A line that holds only a comment: spaces or tabs and then "//". *)
Fixpoint only_comment (l : list ascii) : bool :=
  match l with
  | [] => false
  | c :: l' => if Ascii.eqb c space || Ascii.eqb c tab then only_comment l' else Ascii.eqb c slash && match l' with d :: _ => Ascii.eqb d slash | [] => false end
  end.
Definition code_lines (text : list ascii) : list (list ascii) := List.filter (λ l, negb (only_comment l)) (split_nl text).
Lemma code_lines_app a b : code_lines (a ++ nl :: b) = code_lines a ++ code_lines b.
Proof. unfold code_lines. by rewrite split_nl_app, List.filter_app. Qed.
Definition blanks (l : list ascii) : Prop := Forall (λ c, c = space ∨ c = tab) l.
Lemma only_comment_prefix ws r : blanks ws → only_comment (ws ++ slashes ++ r) = true.
Proof.
  induction 1 as [|c ws Hc _ IH]; [done|]. cbn [app only_comment]. destruct Hc as [->| ->]; [done|]. rewrite orb_true_r. done.
Qed.
(** A comment after a line's blanks and "//". *)
Lemma comment_no_code ws indent c : blanks ws → nl ∉ ws → blanks indent → continues indent c → code_lines (ws ++ slashes ++ space :: c) = [].
Proof.
  intros Hws Hnl Hi Hc. unfold code_lines.
  assert (Forall (λ l, only_comment l = true) (split_nl (ws ++ slashes ++ space :: c))) as Hall.
  { pose proof (join_split_nl c) as Hj. pose proof (split_nl_free c) as Hf. pose proof (split_nl_nonempty c) as Hne.
    set (ls := split_nl c) in *. clearbody ls. destruct ls as [|l ls]; [done|]. apply Forall_cons in Hf as [Hl Hls].
    assert (split_nl (ws ++ slashes ++ space :: c) = (ws ++ slashes ++ space :: l) :: ls) as ->.
    { rewrite <- Hj. destruct ls as [|l' ls].
      - cbn [join]. apply split_nl_single. rewrite !not_elem_of_app, not_elem_of_cons. split; [done|]. split; [|split; [|done]]; apply (bool_decide_eq_true_1 _); vm_compute; reflexivity.
      - rewrite join_cons. cbn [app]. assert (ws ++ slashes ++ space :: l ++ nl :: join [nl] (l' :: ls) = (ws ++ slashes ++ space :: l) ++ nl :: join [nl] (l' :: ls)) as ->.
        { rewrite <- !app_assoc. done. }
        rewrite split_nl_line; [by rewrite split_nl_join|].
        rewrite !not_elem_of_app, not_elem_of_cons. split; [done|]. split; [|split; [|done]]; apply (bool_decide_eq_true_1 _); vm_compute; reflexivity. }
    apply List.Forall_cons; [by apply only_comment_prefix|].
    revert l c Hc Hj Hl Hne. induction ls as [|x ls IH]; intros l c Hc Hj Hl Hne; [apply List.Forall_nil|].
    apply Forall_cons in Hls as [Hx Hls]. rewrite join_cons in Hj. cbn [app] in Hj.
    apply List.Forall_cons.
    - destruct (Hc l (join [nl] (x :: ls)) (eq_sym Hj)) as [r Hr].
      assert (∃ r', x = (indent ++ slashes) ++ r') as [r' ->]; [|rewrite <- app_assoc; by apply only_comment_prefix].
      destruct ls as [|y ls]; [exists r; by rewrite <- app_assoc|]. rewrite join_cons in Hr. cbn [app] in Hr.
      assert (nl ∉ indent ++ slashes) as Hns.
      { apply not_elem_of_app. split; [|apply (bool_decide_eq_true_1 _); vm_compute; reflexivity]. intros Hin. unfold blanks in Hi. rewrite Forall_forall in Hi. destruct (Hi _ Hin); done. }
      rewrite app_assoc in Hr. clear -Hr Hns Hx. revert Hr Hns. generalize (indent ++ slashes). intros p. revert x Hx.
      induction p as [|e p IHp]; intros x Hx Hr Hns; [by exists x|]. destruct x as [|f x]; cbn [app] in Hr.
      + injection Hr as <- _. exfalso. apply Hns. by left.
      + injection Hr as <- Hr. apply not_elem_of_cons in Hx as [_ Hx]. apply not_elem_of_cons in Hns as [_ Hns].
        destruct (IHp x Hx Hr Hns) as [r' ->]. by exists r'.
    - apply (IH Hls x (join [nl] (x :: ls))); [|done|done|done]. intros a b Hab. apply (Hc (l ++ nl :: a) b). rewrite <- Hj, Hab. by rewrite <- app_assoc. }
  induction Hall as [|l ls Hl _ IH]; [done|]. cbn [List.filter]. by rewrite Hl.
Qed.
(** Two options that differ at most in their descriptions. *)
Definition same_but_description (o o' : option_def) : Prop :=
  o_name o = o_name o' ∧ o_type o = o_type o' ∧ o_required o = o_required o' ∧ o_optional o = o_optional o' ∧ o_default o = o_default o'.
Definition short_comment (lib : library) (indent desc : list ascii) : Prop :=
  (Z.of_nat (comment_size indent (wrap lib desc (text_width indent))) <= 2048)%Z.
Definition field_rest (o : option_def) : list ascii :=
  txt "    " ++ goTypeName (o_name o) ++ space :: trimImportPrefix (o_type o) ++
  space :: backquote :: txt "config:" ++ quoted (o_name o) ++ (if o_required o then txt " validate:" ++ quoted (txt "required") else []) ++
  backquote :: [nl].
Lemma field_code a o c rest : continues [tab] c → code_lines (a ++ field_text o c ++ rest) = code_lines a ++ code_lines (field_rest o ++ rest).
Proof.
  intros Hc. change (field_text o c) with (nl :: (txt "    " ++ slashes ++ space :: c ++ nl :: field_rest o)).
  cbn [app]. rewrite code_lines_app. f_equal.
  assert ((txt "    " ++ slashes ++ space :: c ++ nl :: field_rest o) ++ rest = (txt "    " ++ slashes ++ space :: c) ++ nl :: (field_rest o ++ rest)) as ->.
  { rewrite <- !app_assoc. cbn [app]. by rewrite <- app_assoc. }
  rewrite code_lines_app, (comment_no_code (txt "    ") [tab]); [done| | | |done].
  - unfold blanks. cbn. repeat (apply List.Forall_cons; [by left|]). apply List.Forall_nil.
  - apply (bool_decide_eq_true_1 _); vm_compute; reflexivity.
  - apply List.Forall_cons; [by right|apply List.Forall_nil].
Qed.
Lemma tab_free : nl ∉ [tab].
Proof. apply (bool_decide_eq_true_1 _); vm_compute; reflexivity. Qed.
Lemma fields_code lib opts opts' : Forall2 same_but_description opts opts' →
  Forall (λ o, short_comment lib [tab] (o_desc o)) opts → Forall (λ o, short_comment lib [tab] (o_desc o)) opts' →
  ∃ t t', fields_text lib opts = Some t ∧ fields_text lib opts' = Some t' ∧
    ∀ a rest rest', code_lines rest = code_lines rest' → (∀ b, code_lines (b ++ rest) = code_lines (b ++ rest')) →
      code_lines (a ++ t ++ rest) = code_lines (a ++ t' ++ rest').
Proof.
  intros Hall. induction Hall as [|o o' opts opts' Ho Hopts IH]; intros Hs Hs'.
  - exists [], []. split; [done|]. split; [done|]. intros a rest rest' _ Hr. apply Hr.
  - apply Forall_cons in Hs as [Ho1 Hs]. apply Forall_cons in Hs' as [Ho2 Hs']. destruct (IH Hs Hs') as (t & t' & Ht & Ht' & Hcode).
    pose proof (description_exact lib [tab] (o_desc o) tab_free Ho1) as Hd. pose proof (description_exact lib [tab] (o_desc o') tab_free Ho2) as Hd'.
    pose proof (description_continues lib [tab] (o_desc o) _ tab_free Ho1 Hd) as Hc. pose proof (description_continues lib [tab] (o_desc o') _ tab_free Ho2 Hd') as Hc'.
    cbn [fields_text]. rewrite Hd, Hd', Ht, Ht'. eexists _, _. split; [reflexivity|]. split; [reflexivity|].
    intros a rest rest' H0 Hr. rewrite <- !app_assoc. rewrite (field_code _ o _ _ Hc), (field_code _ o' _ _ Hc'). f_equal.
    assert (field_rest o = field_rest o') as ->.
    { destruct Ho as (H1 & H2 & H3 & _). unfold field_rest. by rewrite H1, H2, H3. }
    by apply Hcode.
Qed.
Lemma defaults_same lib opts opts' : Forall2 same_but_description opts opts' → defaults_text lib opts = defaults_text lib opts'.
Proof.
  intros Hall. unfold defaults_text. do 5 f_equal. f_equal. unfold selectDefaults.
  induction Hall as [|o o' opts opts' (H1 & _ & _ & _ & H2) _ IH]; [done|]. cbn [List.filter]. rewrite H2.
  destruct (o_default o') eqn:E; [|exact IH]. cbn [map concat]. f_equal; [|exact IH]. unfold default_text. by rewrite H1, H2, E.
Qed.
Lemma source_code lib lic name imports p p' include : Forall2 same_but_description (p_conf p) (p_conf p') →
  Forall (λ o, short_comment lib [tab] (o_desc o)) (p_conf p) → Forall (λ o, short_comment lib [tab] (o_desc o)) (p_conf p') →
  short_comment lib [] (p_desc p) → short_comment lib [] (p_desc p') →
  ∃ src src', source_text lib lic name imports p include = Some src ∧ source_text lib lic name imports p' include = Some src' ∧ code_lines src = code_lines src'.
Proof.
  intros Hsame Hs Hs' Hd Hd'. destruct (fields_code lib _ _ Hsame Hs Hs') as (t & t' & Ht & Ht' & Hcode).
  pose proof (description_exact lib [] (p_desc p) (not_elem_of_nil _) Hd) as He. pose proof (description_exact lib [] (p_desc p') (not_elem_of_nil _) Hd') as He'.
  pose proof (description_continues lib [] (p_desc p) _ (not_elem_of_nil _) Hd He) as Hc. pose proof (description_continues lib [] (p_desc p') _ (not_elem_of_nil _) Hd' He') as Hc'.
  unfold source_text. rewrite Ht, Ht', He, He'. eexists _, _. split; [reflexivity|]. split; [reflexivity|].
  set (c := join [nl] _) in Hc |- *. set (c' := join [nl] _) in Hc' |- *. rewrite (defaults_same lib _ _ Hsame).
  assert (∀ b x, continues [] x → code_lines (b ++ defaults_text lib (p_conf p') ++ [nl] ++ txt "// " ++ x ++ [nl] ++ tail_text name include) =
    code_lines (b ++ defaults_text lib (p_conf p')) ++ code_lines (tail_text name include)) as H1.
  { intros b x Hx. rewrite app_assoc. cbn [app]. rewrite code_lines_app. f_equal. change (txt "// ") with ([] ++ slashes ++ [space]).
    assert (([] ++ slashes ++ [space]) ++ x ++ nl :: tail_text name include = ([] ++ slashes ++ space :: x) ++ nl :: tail_text name include) as ->.
    { cbn [app slashes]. done. }
    rewrite code_lines_app, (comment_no_code [] []); [done|apply List.Forall_nil|apply not_elem_of_nil|apply List.Forall_nil|done]. }
  apply Hcode.
  - pose proof (H1 [] c Hc) as Ha. pose proof (H1 [] c' Hc') as Hb. cbn [app] in Ha, Hb. cbn [app]. by rewrite Ha, Hb.
  - intros b. by rewrite (H1 b c Hc), (H1 b c' Hc').
Qed.

(** ** A long description *)
Definition keeps_narrow_text (lib : library) : Prop :=
  ∀ t w, Forall (λ c, code c < 128) t → Forall (λ l, (Z.of_nat (length l) <= w)%Z) (split_nl t) → wrap lib t w = t.
Definition evil_lines : list (list ascii) :=
  [txt "abc"; txt "wxyz"] ++ replicate 30 (replicate 70 "x"%char) ++ [txt "Evil int"].
Definition evil_description : list ascii := join [nl] evil_lines.
Lemma evil_all (P : list ascii → Prop) : P (txt "abc") → P (txt "wxyz") → P (replicate 70 "x"%char) → P (txt "Evil int") → Forall P evil_lines.
Proof.
  intros H1 H2 H3 H4. unfold evil_lines. apply Forall_app. split; [apply List.Forall_cons; [done|apply List.Forall_cons; [done|apply List.Forall_nil]]|].
  apply Forall_app. split; [by apply Forall_replicate|]. apply List.Forall_cons; [done|apply List.Forall_nil].
Qed.
Lemma evil_free : Forall (nl ∉.) evil_lines.
Proof. apply evil_all; apply (bool_decide_eq_true_1 _); vm_compute; reflexivity. Qed.
Lemma join_forall (P : ascii → Prop) sep ls : Forall P sep → Forall (Forall P) ls → Forall P (join sep ls).
Proof.
  intros Hsep. induction 1 as [|l ls Hl Hls IH]; [apply List.Forall_nil|]. destruct ls as [|l' ls]; [done|]. rewrite join_cons.
  apply Forall_app. split; [done|]. apply Forall_app. by split.
Qed.
Lemma evil_wrapped lib : keeps_narrow_text lib → wrap lib evil_description (text_width [tab]) = evil_description.
Proof.
  intros Hlib. apply Hlib.
  - apply join_forall; [apply List.Forall_cons; [apply (bool_decide_eq_true_1 _); vm_compute; reflexivity|apply List.Forall_nil]|].
    apply evil_all; apply (bool_decide_eq_true_1 _); vm_compute; reflexivity.
  - unfold evil_description. rewrite split_nl_join; [|done|apply evil_free]. apply evil_all; vm_compute; discriminate.
Qed.
Lemma read_line_first t l ls : read_lines t (l :: ls) = take (length (trim_right l)) t :: read_lines (drop (S (length l)) t) ls.
Proof. done. Qed.
Lemma body_replicate p l n : length (body (map (app p) (replicate n l))) = n * S (length p + length l).
Proof.
  induction n as [|n IH]; [done|]. cbn [replicate map]. rewrite body_cons, !app_length. cbn [length]. rewrite IH. lia.
Qed.
Lemma evil_comment lib : keeps_narrow_text lib →
  ∃ rest, descriptionToComment lib [tab] evil_description = Some (txt "	//" ++ nl :: txt "Evil int" ++ nl :: rest).
Proof.
  intros Hlib. unfold descriptionToComment. rewrite evil_wrapped by done. unfold evil_description. rewrite split_nl_join; [|done|apply evil_free].
  assert (drop_last (drop_first evil_lines) = evil_lines) as ->.
  { assert (drop_first evil_lines = evil_lines) as -> by reflexivity. unfold drop_last, evil_lines. rewrite app_assoc, rev_app_distr. cbn [rev app]. reflexivity. }
  rewrite comment_text. set (p := [tab] ++ txt "// ").
  set (mid := map (app p) (replicate 30 (replicate 70 "x"%char))).
  assert (comment_lines [tab] evil_lines = (txt "abc" :: (p ++ txt "wxyz") :: mid) ++ [p ++ txt "Evil int"]) as ->.
  { unfold comment_lines, evil_lines. cbn [app]. fold p. cbn [map]. rewrite map_app. cbn [map]. reflexivity. }
  set (xs := txt "abc" :: (p ++ txt "wxyz") :: mid). set (x := p ++ txt "Evil int").
  assert (Forall (nl ∉.) (comment_lines [tab] evil_lines)) as Hf by (apply comment_lines_free; [apply tab_free|apply evil_free]).
  assert (length (body mid) = 30 * 75) as Hmid.
  { unfold mid. rewrite body_replicate, replicate_length. reflexivity. }
  assert (length (body xs) = 2263) as Hb.
  { unfold xs. rewrite !body_cons. rewrite !app_length. cbn [length]. rewrite app_length. cbn [length]. rewrite Hmid. rewrite app_length. change (length p) with 4. change (length (txt "abc")) with 3. change (length (txt "wxyz")) with 4. lia. }
  pose proof startBuf_Z as HZ.
  assert (startBuf / 2 = Z.to_nat 2048) as Hhalf. { symmetry. apply (Nat.div_unique startBuf 2 _ 0); lia. }
  rewrite join_body. rewrite trim_short.
  - destruct (Nat.ltb_spec (startBuf / 2) (length (body xs))) as [_|Hlt]; [|lia].
    unfold overwrite. rewrite take_0. cbn [app Nat.add].
    assert (body xs ++ x = (txt "abc" ++ nl :: p ++ txt "wxyz") ++ nl :: body mid ++ x) as ->.
    { unfold xs. rewrite !body_cons. cbn [app txt list_ascii_of_string]. by rewrite <- !app_assoc. }
    rewrite drop_app_alt by reflexivity.
    unfold xs. rewrite !read_line_first.
    assert (take (length (trim_right (txt "abc"))) (x ++ nl :: body mid ++ x) = txt "	//") as -> by (vm_compute; reflexivity).
    rewrite drop_drop.
    assert (drop (S (length (txt "abc"))) (x ++ nl :: body mid ++ x) = txt "Evil int" ++ nl :: body mid ++ x) as -> by reflexivity.
    assert (take (length (trim_right (p ++ txt "wxyz"))) (txt "Evil int" ++ nl :: body mid ++ x) = txt "Evil int") as -> by (vm_compute; reflexivity).
    cbn [app]. set (ys := read_lines _ mid ++ last_line x). assert (ys ≠ []) as Hys.
    { unfold ys. intros E. apply app_eq_nil in E as [_ E]. done. }
    clearbody ys. destruct ys as [|y ys]; [done|]. exists (join [nl] (y :: ys)). rewrite !join_cons. reflexivity.
  - assert (comment_lines [tab] evil_lines = xs ++ [x]) as E.
    { unfold comment_lines, evil_lines. cbn [app]. fold p. cbn [map]. rewrite map_app. cbn [map]. reflexivity. }
    rewrite E in Hf. by apply Forall_app in Hf as [Hf _].
  - apply (bool_decide_eq_true_1 _). vm_compute. reflexivity.
  - rewrite app_length, Hb. change (length x) with 12. lia.
Qed.
Definition one_option (desc : list ascii) : proc_def := mkProc [] [mkOpt (txt "field") (txt "string") true false None desc].
Lemma nothing_wrapped lib w : keeps_narrow_text lib → (0 <= w)%Z → wrap lib [] w = [].
Proof. intros Hlib Hw. apply Hlib; [apply List.Forall_nil|]. apply List.Forall_cons; [done|apply List.Forall_nil]. Qed.
Lemma nothing_short lib indent : keeps_narrow_text lib → short_comment lib indent [].
Proof.
  intros Hlib. unfold short_comment. rewrite nothing_wrapped; [done|done|]. unfold text_width. apply Z.mod_pos_bound. done.
Qed.
Lemma evil_source lib lic name imports include : keeps_narrow_text lib →
  ∃ src src', source_text lib lic name imports (one_option evil_description) include = Some src ∧
    source_text lib lic name imports (one_option []) include = Some src' ∧ code_lines src ≠ code_lines src'.
Proof.
  intros Hlib. destruct (evil_comment lib Hlib) as [rest He].
  pose proof (nothing_short lib [] Hlib) as Hs0. pose proof (nothing_short lib [tab] Hlib) as Hs1.
  pose proof (description_exact lib [] [] (not_elem_of_nil _) Hs0) as Hd0.
  pose proof (description_exact lib [tab] [] tab_free Hs1) as Hd1. pose proof (description_continues lib [tab] [] _ tab_free Hs1 Hd1) as Hc1.
  unfold source_text, one_option. cbn [p_conf p_desc fields_text o_desc]. rewrite He, Hd0, Hd1.
  eexists _, _. split; [reflexivity|]. split; [reflexivity|].
  rewrite !app_nil_r. rewrite (field_code _ _ _ _ Hc1).
  set (o := mkOpt _ _ _ _ _ evil_description). set (o' := mkOpt _ _ _ _ _ []). set (tl := defaults_text lib [o] ++ _).
  change (defaults_text lib [o']) with (defaults_text lib [o]). fold tl. change (field_rest o') with (field_rest o).
  change (field_text o (txt "	//" ++ nl :: txt "Evil int" ++ nl :: rest)) with (nl :: txt "    // 	//" ++ nl :: txt "Evil int" ++ nl :: (rest ++ nl :: field_rest o)).
  cbn [app]. rewrite code_lines_app. intros Heq. apply app_inv_head in Heq.
  assert ((txt "    // 	//" ++ nl :: txt "Evil int" ++ nl :: (rest ++ nl :: field_rest o)) ++ tl =
    txt "    // 	//" ++ nl :: txt "Evil int" ++ nl :: (rest ++ nl :: (field_rest o ++ tl))) as E.
  { rewrite <- !app_assoc. cbn [app]. rewrite <- !app_assoc. cbn [app]. rewrite <- !app_assoc. done. }
  rewrite E in Heq. rewrite !code_lines_app in Heq. apply (f_equal length) in Heq. rewrite !app_length in Heq.
  change (length (code_lines (txt "Evil int"))) with 1 in Heq. lia.
Qed.
