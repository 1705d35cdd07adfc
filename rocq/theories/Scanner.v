(** * bufio.Scanner with its buffer.

    Cmd.v has the lines that Scan delivers; here the scanner keeps them in a buffer that it
    reuses, so that the bytes behind a slice returned by Bytes() can change later.  Go's
    bufio/scan.go: Scan, ScanLines, dropCR.  Used by cmd/sawmill/sawmill.go:119-145 (which
    copies every line: Text()) and internal/proctemplate/funcs.go:64-74 (which keeps the
    slices). *)
From Verif Require Export Cmd CmdFacts.
From Coq Require Import Lia.
Local Open Scope nat_scope.

(** ** The model *)
(** scan.go: startBufSize, MaxScanTokenSize *)
Definition startBuf : nat := Z.to_nat 4096.
Definition maxTok : nat := Z.to_nat 65536.
(** The scanner: earlier buffers, the buffer, start, end, whether the reader has reported
    the end, what is left to read, and how much each Read delivers at most, less one
    (empty: as much as fits, as bytes.Buffer does).  Simplified: the reader fails only with
    io.EOF, in a call of its own. *)
Record scanner : Type := mkSc {
  s_old : list (list ascii); s_buf : list ascii; s_start : nat; s_end : nat; s_eof : bool;
  s_in : list ascii; s_chunks : list nat
}.
Definition newScanner (input : list ascii) (chunks : list nat) : scanner := mkSc [] [] 0 0 false input chunks.
(** buf[start:end] *)
Definition held (s : scanner) : list ascii := take (s_end s - s_start s) (drop (s_start s) (s_buf s)).
(** copy(buf[off:], d) *)
Definition overwrite (buf : list ascii) (off : nat) (d : list ascii) : list ascii :=
  take off buf ++ d ++ drop (off + length d) buf.
(** bytes.IndexByte(data, '\n') *)
Fixpoint index_nl (l : list ascii) : option nat :=
  match l with
  | [] => None
  | c :: l' => if Ascii.eqb c nl then Some 0 else match index_nl l' with Some i => Some (S i) | None => None end
  end.
(** scan.go ScanLines: how far to advance, and the token, a prefix of the data, by length. *)
Definition ScanLines (data : list ascii) (eof : bool) : option (nat * nat) :=
  match index_nl data with
  | Some i => Some (S i, length (dropCR (take i data)))
  | None => if eof then match data with [] => None | _ => Some (length data, length (dropCR data)) end else None
  end.
(** scan.go Scan: "First, shift data to beginning of buffer if there's lots of empty space
    or space is needed." *)
Definition shift (s : scanner) : scanner :=
  if (0 <? s_start s) && ((s_end s =? length (s_buf s)) || (length (s_buf s) / 2 <? s_start s))
  then mkSc (s_old s) (overwrite (s_buf s) 0 (held s)) 0 (s_end s - s_start s) (s_eof s) (s_in s) (s_chunks s)
  else s.
(** "Is the buffer full? If so, resize." *)
Definition resize (s : scanner) : option scanner :=
  if s_end s =? length (s_buf s) then
    if maxTok <=? length (s_buf s) then None
    else
      let n := if length (s_buf s) =? 0 then startBuf else Nat.min (2 * length (s_buf s)) maxTok in
      Some (mkSc (s_old s ++ [s_buf s]) (overwrite (replicate n zero) 0 (held s)) 0 (s_end s - s_start s) (s_eof s) (s_in s) (s_chunks s))
  else Some s.
(** "Finally we can read some input." *)
Definition fill (s : scanner) : scanner :=
  match s_in s with
  | [] => mkSc (s_old s) (s_buf s) (s_start s) (s_end s) true [] (s_chunks s)
  | _ =>
      let room := length (s_buf s) - s_end s in
      let n := match s_chunks s with [] => room | c :: _ => Nat.min room (S c) end in
      let d := take n (s_in s) in
      mkSc (s_old s) (overwrite (s_buf s) (s_end s) d) (s_start s) (s_end s + length d) false (drop n (s_in s)) (tail (s_chunks s))
  end.
(** A slice of one of the buffers. *)
Record slice : Type := mkSlice { sl_buf : nat; sl_off : nat; sl_len : nat }.
Inductive step_result : Type :=
| Token (sl : slice) (s : scanner)
| More (s : scanner)
| Stop
| TooLong.
(** scan.go Scan, one turn of its loop. *)
Definition turn (s : scanner) : step_result :=
  match (if (s_start s <? s_end s) || s_eof s then ScanLines (held s) (s_eof s) else None) with
  | Some (adv, n) =>
      Token (mkSlice (length (s_old s)) (s_start s) n)
            (mkSc (s_old s) (s_buf s) (s_start s + adv) (s_end s) (s_eof s) (s_in s) (s_chunks s))
  | None =>
      if s_eof s then Stop
      else match resize (shift s) with None => TooLong | Some s' => More (fill s') end
  end.
(** What a slice shows. *)
Definition buffers (s : scanner) : list (list ascii) := s_old s ++ [s_buf s].
Definition bytes_of (bs : list (list ascii)) (sl : slice) : list ascii :=
  take (sl_len sl) (drop (sl_off sl) (default [] (bs !! sl_buf sl))).
(** All the tokens, each with its bytes at the time, the scanner at the end, and whether it
    stopped with ErrTooLong.  [None]: not enough fuel. *)
Fixpoint scan_all (fuel : nat) (s : scanner) : option (list (slice * list ascii) * scanner * bool) :=
  match fuel with
  | O => None
  | S fuel' =>
      match turn s with
      | Token sl s' =>
          match scan_all fuel' s' with
          | None => None
          | Some (l, s'', long) => Some ((sl, bytes_of (buffers s') sl) :: l, s'', long)
          end
      | More s' => scan_all fuel' s'
      | Stop => Some ([], s, false)
      | TooLong => Some ([], s, true)
      end
  end.
(** Enough turns (proved below). *)
Definition scan_fuel (s : scanner) : nat := 2 * length (s_in s) + (s_end s - s_start s) + (if s_eof s then 0 else 1) + 1.
Definition scan_buffered (input : list ascii) (chunks : list nat) : option (list (slice * list ascii) * scanner * bool) :=
  scan_all (scan_fuel (newScanner input chunks)) (newScanner input chunks).

(** ** The lines at the time *)
Definition sound (s : scanner) : Prop :=
  s_start s ≤ s_end s ∧ s_end s ≤ length (s_buf s) ∧ length (s_buf s) ≤ maxTok ∧ (s_eof s = true → s_in s = [] ∧ s_end s - s_start s < maxTok).
Lemma startBuf_Z : Z.of_nat startBuf = 4096%Z.
Proof. unfold startBuf. lia. Qed.
Lemma maxTok_Z : Z.of_nat maxTok = 65536%Z.
Proof. unfold maxTok. lia. Qed.
Global Opaque startBuf maxTok.
Lemma overwrite_length buf off d : off + length d ≤ length buf → length (overwrite buf off d) = length buf.
Proof. intros H. unfold overwrite. rewrite !app_length, take_length, drop_length. lia. Qed.
Lemma held_length s : sound s → length (held s) = s_end s - s_start s.
Proof. intros (H1 & H2 & _). unfold held. rewrite take_length, drop_length. lia. Qed.
Lemma held_front old buf d n e i c : length d = n → 0 ≤ n → held (mkSc old (overwrite buf 0 d) 0 n e i c) = d.
Proof. intros <- _. unfold held, overwrite. cbn [s_start s_end s_buf]. rewrite Nat.sub_0_r, drop_0, take_0. cbn [app]. by rewrite take_app. Qed.
Lemma index_nl_some l i : index_nl l = Some i → ∃ a b, l = a ++ nl :: b ∧ nl ∉ a ∧ length a = i.
Proof.
  revert i. induction l as [|c l IH]; intros i; cbn [index_nl]; [done|]. destruct (Ascii.eqb_spec c nl) as [->|Hne].
  - intros [= <-]. exists [], l. split_and!; [done|apply not_elem_of_nil|done].
  - destruct (index_nl l) as [j|]; [|done]. intros [= <-]. destruct (IH _ eq_refl) as (a & b & -> & Ha & <-).
    exists (c :: a), b. split_and!; [done|by apply not_elem_of_cons|done].
Qed.
Lemma index_nl_none l : index_nl l = None → nl ∉ l.
Proof.
  induction l as [|c l IH]; cbn [index_nl]; [intros _; apply not_elem_of_nil|]. destruct (Ascii.eqb_spec c nl) as [->|Hne]; [done|].
  destruct (index_nl l); [done|]. intros _. apply not_elem_of_cons. split; [congruence|by apply IH].
Qed.
Lemma dropCR_prefix l : ∃ r, l = dropCR l ++ r.
Proof.
  unfold dropCR. destruct (rev l) as [|c r] eqn:E; [by exists []; rewrite app_nil_r|].
  assert (l = rev r ++ [c]) as Hl by (rewrite <- (rev_involutive l), E; done).
  destruct (Ascii.eqb c cr); [by exists [c]|exists []; by rewrite app_nil_r].
Qed.
Lemma shift_spec s : sound s → sound (shift s) ∧ held (shift s) = held s ∧ s_in (shift s) = s_in s ∧ s_eof (shift s) = s_eof s ∧
  (s_end (shift s) = length (s_buf (shift s)) → s_start (shift s) = 0) ∧ s_end (shift s) - s_start (shift s) = s_end s - s_start s.
Proof.
  intros Hs. pose proof (held_length s Hs) as Hl. destruct Hs as (H1 & H2 & H3 & H4). unfold shift. destruct (_ && _) eqn:E.
  - split_and!; cbn [s_start s_end s_buf s_in s_eof]; try done; try lia.
    + unfold sound. cbn [s_start s_end s_buf s_in s_eof]. rewrite overwrite_length by lia. split; [lia|]. split; [lia|]. split; [lia|].
      intros He. destruct (H4 He). split; [done|lia].
    + apply held_front; [done|cbn; lia].
  - split_and!; try done. apply andb_false_iff in E as [E|E].
    + apply Nat.ltb_ge in E. lia.
    + apply orb_false_iff in E as [E _]. apply Nat.eqb_neq in E. done.
Qed.
Lemma resize_spec s s' : sound s → (s_end s = length (s_buf s) → s_start s = 0) → resize s = Some s' →
  sound s' ∧ held s' = held s ∧ s_in s' = s_in s ∧ s_eof s' = s_eof s ∧ s_end s' < length (s_buf s') ∧ s_end s' - s_start s' = s_end s - s_start s.
Proof.
  intros Hs Hf. pose proof (held_length s Hs) as Hl. pose proof startBuf_Z. pose proof maxTok_Z. pose proof Hs as (H1 & H2 & H3 & H4). unfold resize.
  destruct (Nat.eqb_spec (s_end s) (length (s_buf s))) as [E|E].
  2:{ intros Heq. injection Heq as <-. split; [exact Hs|]. repeat (split; [reflexivity|]). split; [lia|reflexivity]. }
  specialize (Hf E). destruct (Nat.leb_spec maxTok (length (s_buf s))) as [|Hlt]; [done|]. cbv zeta.
  set (n := if length (s_buf s) =? 0 then startBuf else Nat.min (2 * length (s_buf s)) maxTok).
  assert (length (s_buf s) < n ∧ n ≤ maxTok) as [Hn1 Hn2].
  { unfold n. destruct (Nat.eqb_spec (length (s_buf s)) 0); lia. }
  clearbody n. intros Heq. injection Heq as <-.
  assert (length (overwrite (replicate n zero) 0 (held s)) = n) as Hlen by (rewrite overwrite_length; rewrite replicate_length; lia).
  unfold sound. cbn [s_start s_end s_buf s_in s_eof]. rewrite !Hlen. split; [split; [lia|]; split; [lia|]; split; [lia|]|].
  { intros He. destruct (H4 He). split; [assumption|lia]. }
  split; [apply held_front; [exact Hl|lia]|]. split; [reflexivity|]. split; [reflexivity|]. lia.
Qed.
Lemma fill_spec s : sound s → s_eof s = false → s_end s < length (s_buf s) →
  sound (fill s) ∧ held (fill s) ++ s_in (fill s) = held s ++ s_in s ∧
  2 * length (s_in (fill s)) + (s_end (fill s) - s_start (fill s)) + (if s_eof (fill s) then 0 else 1) < 2 * length (s_in s) + (s_end s - s_start s) + 1.
Proof.
  intros Hs He Hroom. pose proof (held_length s Hs) as Hl. destruct Hs as (H1 & H2 & H3 & H4). unfold fill. destruct (s_in s) as [|c i] eqn:Ei.
  - split; [|split].
    + unfold sound. cbn [s_start s_end s_buf s_in s_eof]. split; [lia|]. split; [lia|]. split; [lia|]. intros _. split; [done|lia].
    + done.
    + cbn [s_start s_end s_buf s_in s_eof length]. lia.
  - rewrite <- Ei. clear H4. set (n := match s_chunks s with [] => _ | c :: _ => _ end).
    assert (1 ≤ n ≤ length (s_buf s) - s_end s) as Hn by (unfold n; destruct (s_chunks s); lia).
    assert (1 ≤ length (take n (s_in s)) ≤ length (s_buf s) - s_end s) as Hd by (rewrite take_length, Ei; cbn [length]; lia).
    assert (length (take n (s_in s)) + length (drop n (s_in s)) = length (s_in s)) as Hsum by (rewrite <- app_length; by rewrite take_drop).
    split_and!; cbn [s_start s_end s_buf s_in s_eof].
    + split_and!; cbn [s_start s_end s_buf s_in s_eof]; [lia| | |done]; rewrite overwrite_length; lia.
    + unfold held at 1. cbn [s_start s_end s_buf]. unfold overwrite.
      assert (drop (s_start s) (take (s_end s) (s_buf s) ++ take n (s_in s) ++ drop (s_end s + length (take n (s_in s))) (s_buf s)) =
        held s ++ take n (s_in s) ++ drop (s_end s + length (take n (s_in s))) (s_buf s)) as ->.
      { rewrite drop_app_le by (rewrite take_length; lia). f_equal. unfold held. by rewrite skipn_firstn_comm. }
      rewrite app_assoc, take_app_alt; [|rewrite app_length, Hl; lia]. by rewrite <- app_assoc, take_drop.
    + lia.
Qed.
Lemma scan_long l : ∀ cur n, (maxLine <= n)%Z → scan l cur n = ([], true).
Proof.
  induction l as [|c l IH]; intros cur n Hn; cbn [scan].
  - destruct (Z.eqb_spec n 0); [unfold maxLine in *; lia|]. by rewrite (proj2 (Z.leb_le _ _) Hn).
  - rewrite (proj2 (Z.leb_le _ _) Hn). destruct (Ascii.eqb c nl); [done|]. apply IH. lia.
Qed.
Lemma bytes_now s n sl : sl = mkSlice (length (s_old s)) (s_start s) n → n ≤ s_end s - s_start s → bytes_of (buffers s) sl = take n (held s).
Proof.
  intros -> Hn. unfold bytes_of, buffers, held. cbn [sl_buf sl_off sl_len]. rewrite lookup_app_r, Nat.sub_diag by done. cbn. by rewrite take_take, Nat.min_l.
Qed.
Lemma dropCR_take l : take (length (dropCR l)) l = dropCR l.
Proof. destruct (dropCR_prefix l) as [r Hr]. rewrite Hr at 2. by rewrite take_app. Qed.
Lemma dropCR_len l : length (dropCR l) ≤ length l.
Proof. destruct (dropCR_prefix l) as [r Hr]. rewrite Hr at 2. rewrite app_length. lia. Qed.
Lemma scan_all_lines fuel : ∀ s, sound s → scan_fuel s ≤ fuel →
  ∃ toks s', scan_all fuel s = Some (toks, s', (scan (held s ++ s_in s) [] 0%Z).2) ∧ map snd toks = (scan (held s ++ s_in s) [] 0%Z).1.
Proof.
  induction fuel as [|fuel IH]; intros s Hs Hf; [unfold scan_fuel in Hf; lia|]. cbn [scan_all].
  pose proof (held_length s Hs) as Hl. pose proof Hs as (H1 & H2 & H3 & H4). unfold turn.
  assert (∀ adv n d rest, held s = d ++ rest → n ≤ length d → length d = adv → 1 ≤ adv → scan_all (S fuel) s = scan_all (S fuel) s →
    let s' := mkSc (s_old s) (s_buf s) (s_start s + adv) (s_end s) (s_eof s) (s_in s) (s_chunks s) in
    let sl := mkSlice (length (s_old s)) (s_start s) n in
    sound s' ∧ scan_fuel s' ≤ fuel ∧ held s' = rest ∧ bytes_of (buffers s') sl = take n d) as Hadv.
  { intros adv n d rest Hh Hn Ha Hadv1 _ s' sl. rewrite Hh, app_length in Hl. split_and!.
    - unfold s', sound. cbn [s_start s_end s_buf s_in s_eof]. split; [lia|]. split; [lia|]. split; [lia|]. intros He. destruct (H4 He). split; [done|lia].
    - unfold s', scan_fuel in *. cbn [s_start s_end s_buf s_in s_eof] in *. lia.
    - unfold s', held. cbn [s_start s_end s_buf]. rewrite <- drop_drop, Nat.sub_add_distr.
      assert (rest = drop adv (held s)) as -> by (by rewrite Hh, drop_app_alt). unfold held. rewrite skipn_firstn_comm. done.
    - change (buffers s') with (buffers s). rewrite (bytes_now s n sl eq_refl) by lia. rewrite Hh, take_app_le; [done|lia]. }
  assert (s_eof s = false → nl ∉ held s → ∃ toks s', match (match resize (shift s) with None => TooLong | Some s' => More (fill s') end) with
      | Token sl s' => match scan_all fuel s' with None => None | Some (l, s'', long) => Some ((sl, bytes_of (buffers s') sl) :: l, s'', long) end
      | More s' => scan_all fuel s'
      | Stop => Some ([], s, false)
      | TooLong => Some ([], s, true)
      end = Some (toks, s', (scan (held s ++ s_in s) [] 0%Z).2) ∧ map snd toks = (scan (held s ++ s_in s) [] 0%Z).1) as Hmore.
  { intros He Hnl. destruct (shift_spec s Hs) as (B1 & B2 & B3 & B4 & B5 & B6). destruct (resize (shift s)) as [s1|] eqn:Er.
    - destruct (resize_spec _ _ B1 B5 Er) as (D1 & D2 & D3 & D4 & D5 & D6).
      destruct (fill_spec s1 D1) as (F1 & F2 & F3); [congruence|exact D5|].
      destruct (IH (fill s1) F1) as (toks & s' & G1 & G2).
      { unfold scan_fuel in *. rewrite He in Hf. rewrite D3, B3, D6, B6 in F3. lia. }
      rewrite F2, D2, D3, B2, B3 in G1, G2. exists toks, s'. split; [exact G1|exact G2].
    - unfold resize in Er. destruct (Nat.eqb_spec (s_end (shift s)) (length (s_buf (shift s)))) as [E|]; [|done]. specialize (B5 E).
      destruct (Nat.leb_spec maxTok (length (s_buf (shift s)))) as [Hx|]; [|done].
      assert (maxTok ≤ length (held s)) as Hlong by lia.
      rewrite scan_prefix by done. rewrite scan_long; [|pose proof maxTok_Z; unfold maxLine; lia]. exists [], s. split; reflexivity. }
  destruct ((s_start s <? s_end s) || s_eof s) eqn:Eb.
  - destruct (ScanLines (held s) (s_eof s)) as [[adv n]|] eqn:ESL.
    + unfold ScanLines in ESL. destruct (index_nl (held s)) as [i|] eqn:Ei.
      * apply index_nl_some in Ei as (a & b & Hh & Ha & Hi). injection ESL as <- <-.
        assert (take i (held s) = a) as Et by (by rewrite Hh, take_app_alt). rewrite Et.
        destruct (Hadv (S i) (length (dropCR a)) (a ++ [nl]) b) as (A1 & A2 & A3 & A4).
        { by rewrite Hh, <- app_assoc. } { rewrite app_length. pose proof (dropCR_len a). lia. } { rewrite app_length. cbn. lia. } { lia. } { done. }
        cbn [sl_len] in *. destruct (IH _ A1 A2) as (toks & s' & -> & Ht). rewrite A3 in *. cbn [s_in] in *.
        rewrite Hh, <- app_assoc, (scan_prefix a) by exact Ha. cbn [app scan]. destruct (Ascii.eqb_spec nl nl); [|done].
        assert (length a < maxTok) as Hlt. { rewrite Hh, app_length in Hl. cbn in Hl. lia. }
        destruct (Z.leb_spec maxLine (0 + Z.of_nat (length a))) as [Hx|_]; [pose proof maxTok_Z; unfold maxLine in Hx; lia|].
        destruct (scan (b ++ s_in s) [] 0%Z) as [ls long] eqn:Es. cbn [fst snd] in *. rewrite app_nil_r, rev_involutive.
        eexists _, _. split; [reflexivity|]. cbn [map snd]. rewrite A4, Ht. f_equal.
        rewrite take_app_le by apply dropCR_len. apply dropCR_take.
      * apply index_nl_none in Ei. destruct (s_eof s) eqn:Ee; [|done]. destruct (H4 eq_refl) as [Hin Hshort].
        destruct (held s) as [|c h] eqn:Eh; [done|]. injection ESL as <- <-.
        destruct (Hadv (length (c :: h)) (length (dropCR (c :: h))) (c :: h) []) as (A1 & A2 & A3 & A4).
        { by rewrite app_nil_r. } { apply dropCR_len. } { done. } { cbn. lia. } { done. }
        destruct (IH _ A1 A2) as (toks & s' & Er & Ht). rewrite A3 in *. cbn [s_in] in Er, Ht. rewrite Hin in Er, Ht |- *. cbn [app scan fst snd] in Er, Ht.
        assert (Z.eqb 0 0 = true) as E0 by done. rewrite E0 in Er, Ht. rewrite Hin in A4. change (S (length h)) with (length (c :: h)). cbn [fst snd] in Er, Ht. rewrite Er.
        assert (scan ((c :: h) ++ []) [] 0%Z = ([dropCR (c :: h)], false)) as ->.
        { rewrite <- app_nil_r at 1. rewrite app_nil_r. rewrite scan_prefix by done. cbn [scan].
          destruct (Z.eqb_spec (0 + Z.of_nat (length (c :: h))) 0) as [Hz|_]; [cbn in Hz; lia|].
          destruct (Z.leb_spec maxLine (0 + Z.of_nat (length (c :: h)))) as [Hx|_]; [pose proof maxTok_Z; unfold maxLine in Hx; lia|].
          by rewrite app_nil_r, rev_involutive. }
        eexists _, _. split; [reflexivity|]. cbn [map snd fst]. rewrite A4, Ht. f_equal. apply dropCR_take.
    + destruct (s_eof s) eqn:Ee.
      * destruct (H4 eq_refl) as [Hin _]. unfold ScanLines in ESL. destruct (index_nl (held s)); [done|].
        destruct (held s) as [|c h]; [|done]. rewrite Hin. cbn [app scan]. assert (Z.eqb 0 0 = true) as -> by done. exists [], s. split; reflexivity.
      * apply Hmore; [done|]. unfold ScanLines in ESL. destruct (index_nl (held s)) eqn:Ei; [done|]. by apply index_nl_none.
  - apply orb_false_iff in Eb as [Eb Ee]. rewrite Ee. apply Hmore; [done|]. apply Nat.ltb_ge in Eb.
    destruct (held s) as [|c h]; [apply not_elem_of_nil|]. cbn [length] in Hl. lia.
Qed.
