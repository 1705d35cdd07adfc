(** * Reading depends only on the bytes read; fuel is irrelevant *)
From Verif Require Export WireRead.
Local Open Scope Z_scope.

(** ** Varints: moving and cutting *)
Lemma byte_at_shift pre d suf i : 0 ≤ i < len d → byte_at (pre ++ d ++ suf) (len pre + i) = byte_at d i.
Proof.
  intros H. unfold byte_at. pose proof (len_nonneg pre).
  rewrite !(proj2 (Z.leb_le _ _)) by lia.
  replace (Z.to_nat (len pre + i)) with (length pre + Z.to_nat i)%nat by (unfold len; lia).
  rewrite nth_error_app2 by lia. replace (length pre + Z.to_nat i - length pre)%nat with (Z.to_nat i) by lia.
  rewrite nth_error_app1; [done|]. unfold len in H. lia.
Qed.

Lemma varint_from_shift f pre d suf i shift acc v j :
  0 ≤ i → varint_from f d i shift acc = ROk (v, j) →
  varint_from f (pre ++ d ++ suf) (len pre + i) shift acc = ROk (v, len pre + j).
Proof.
  revert i shift acc. induction f as [|f IH]; intros i shift acc Hi H; [done|].
  cbn [varint_from] in *. rewrite !Z.geb_leb in *.
  destruct (Z.leb_spec 64 shift); [done|].
  destruct (Z.leb_spec (len d) i); [done|].
  rewrite (proj2 (Z.leb_gt _ _)).
  2:{ rewrite !len_app. pose proof (len_nonneg suf). lia. }
  rewrite byte_at_shift by lia.
  destruct (byte_at d i) as [b| |]; cbn [rbind] in *; try done.
  destruct (bval b <? 128).
  - simplify_eq. f_equal. f_equal. lia.
  - rewrite <- Z.add_assoc. by apply IH; [lia|].
Qed.

Lemma varint_from_cut f d suf i shift acc v j :
  0 ≤ i → varint_from f (d ++ suf) i shift acc = ROk (v, j) → j ≤ len d →
  varint_from f d i shift acc = ROk (v, j).
Proof.
  revert i shift acc. induction f as [|f IH]; intros i shift acc Hi H Hj; [done|].
  cbn [varint_from] in *. rewrite !Z.geb_leb in *.
  destruct (Z.leb_spec 64 shift); [done|].
  destruct (Z.leb_spec (len (d ++ suf)) i); [done|].
  assert (i < j) as Hij.
  { destruct (byte_at (d ++ suf) i) as [b| |]; cbn [rbind] in *; try done.
    destruct (bval b <? 128); [simplify_eq; lia|].
    clear -H Hi. revert H. generalize (shift + 7). generalize (Z.lor acc (u64 (Z.land (bval b) 127 ≪ shift))).
    intros acc' shift' H. enough (i + 1 ≤ j) by lia. revert H Hi. generalize i. revert acc' shift'.
    induction f as [|f IH]; intros acc' shift' i' H Hi'; [done|].
    cbn [varint_from] in H. rewrite !Z.geb_leb in *.
    destruct (64 <=? shift'); [done|]. destruct (_ <=? _); [done|].
    destruct (byte_at _ _) as [b'| |]; cbn [rbind] in *; try done.
    destruct (bval b' <? 128); [simplify_eq; lia|].
    apply IH in H; lia. }
  rewrite (proj2 (Z.leb_gt _ _)) by lia.
  pose proof (byte_at_shift [] d suf i ltac:(lia)) as Hb. cbn [app] in Hb. rewrite len_nil, Z.add_0_l in Hb.
  rewrite Hb in H.
  destruct (byte_at d i) as [b| |]; cbn [rbind] in *; try done.
  destruct (bval b <? 128); [done|]. apply IH; [lia|done|done].
Qed.

Lemma read_varint_shift pre d suf i v j :
  0 ≤ i → read_varint d i = ROk (v, j) →
  read_varint (pre ++ d ++ suf) (len pre + i) = ROk (v, len pre + j).
Proof. apply varint_from_shift. Qed.
Lemma read_varint_cut d suf i v j :
  0 ≤ i → read_varint (d ++ suf) i = ROk (v, j) → j ≤ len d → read_varint d i = ROk (v, j).
Proof. apply varint_from_cut. Qed.
Lemma read_varint_bounds d i v j : 0 ≤ i → read_varint d i = ROk (v, j) → i < j ≤ len d.
Proof. intros Hi H. pose proof (read_varint_safe d i Hi) as Hs. rewrite H in Hs. tauto. Qed.

(** ** skipEvent: moving, cutting, fuel *)
Definition skip_next (f : nat) (d : bytes) (i : Z) (depth : nat) : res Z :=
  if (i <? 0)%Z then RErr EInvalidLength
  else match depth with O => ROk i | _ => skip_loop f d i depth end.

(** One turn of the loop: the field starting at [i], then the rest. *)
Definition skip_one (d : bytes) (i : Z) (depth : nat) : res (Z * nat) :=
  rbind (read_varint d i) (λ '(wire, i),
    let wt := Z.land wire 7 in
    if (wt =? 0)%Z then rbind (read_varint d i) (λ '(_, i), ROk (i, depth))
    else if (wt =? 1)%Z then ROk (s64 (i + 8), depth)
    else if (wt =? 2)%Z then
      rbind (read_varint d i) (λ '(v, i),
        let n := s64 v in
        if (n <? 0)%Z then RErr EInvalidLength else ROk (s64 (i + n), depth))
    else if (wt =? 3)%Z then ROk (i, S depth)
    else if (wt =? 4)%Z then
      match depth with O => RErr EEndGroup | S depth' => ROk (i, depth') end
    else if (wt =? 5)%Z then ROk (s64 (i + 4), depth)
    else RErr (EIllegalWireType wt)).

Lemma skip_loop_S f d i depth :
  skip_loop (S f) d i depth =
    if (i <? len d)%Z
    then rbind (skip_one d i depth) (λ '(j, depth'), skip_next f d j depth')
    else RErr EUnexpectedEOF.
Proof.
  cbn [skip_loop]. destruct (i <? len d); [|done]. unfold skip_one, skip_next.
  destruct (read_varint d i) as [[wire j]| |]; cbn [rbind]; try done.
  destruct (Z.land wire 7 =? 0). { destruct (read_varint d j) as [[? ?]| |]; done. }
  destruct (Z.land wire 7 =? 1); [done|].
  destruct (Z.land wire 7 =? 2).
  { destruct (read_varint d j) as [[v ?]| |]; cbn [rbind]; try done. by destruct (s64 v <? 0). }
  destruct (Z.land wire 7 =? 3); [done|].
  destruct (Z.land wire 7 =? 4); [by destruct depth|].
  destruct (Z.land wire 7 =? 5); done.
Qed.

Lemma skip_one_bounds d i depth j depth' :
  fits d → 0 ≤ i → skip_one d i depth = ROk (j, depth') → 0 ≤ j → i < j < 2 ^ 63.
Proof.
  intros Hd Hi H Hj. unfold skip_one, fits in *.
  pose proof (read_varint_safe d i Hi) as Hr.
  destruct (read_varint d i) as [[wire j0]| |]; cbn [rbind] in H; try done. destruct Hr as [Hr _].
  assert (∀ a k, i < a ≤ len d → 0 ≤ k < 2^63 → s64 (a + k) = j → i < j < 2 ^ 63) as Hk.
  { intros a k Ha Hk He. pose proof (s64_range (a + k)). destruct (s64_add a k); lia. }
  destruct (Z.land wire 7 =? 0).
  { pose proof (read_varint_safe d j0 ltac:(lia)) as Hr2.
    destruct (read_varint d j0) as [[? ?]| |]; cbn [rbind] in H; try done. simplify_eq. lia. }
  destruct (Z.land wire 7 =? 1). { simplify_eq. eapply Hk; [| |done]; lia. }
  destruct (Z.land wire 7 =? 2).
  { pose proof (read_varint_safe d j0 ltac:(lia)) as Hr2.
    destruct (read_varint d j0) as [[v ?]| |]; cbn [rbind] in H; try done.
    cbn zeta in H. pose proof (s64_range v). destruct (Z.ltb_spec (s64 v) 0); [done|]. simplify_eq. eapply Hk; [| |done]; lia. }
  destruct (Z.land wire 7 =? 3); [simplify_eq; lia|].
  destruct (Z.land wire 7 =? 4); [destruct depth; simplify_eq; lia|].
  destruct (Z.land wire 7 =? 5). { simplify_eq. eapply Hk; [| |done]; lia. }
  done.
Qed.

Lemma skip_one_grow d suf i depth j depth' :
  0 ≤ i → skip_one d i depth = ROk (j, depth') → skip_one (d ++ suf) i depth = ROk (j, depth').
Proof.
  intros Hi H. unfold skip_one in *.
  assert (∀ i v j, 0 ≤ i → read_varint d i = ROk (v, j) → read_varint (d ++ suf) i = ROk (v, j)) as Hg.
  { intros i0 v j0 Hi0 H0. exact (read_varint_shift [] d suf i0 v j0 Hi0 H0). }
  destruct (read_varint d i) as [[wire j0]| |] eqn:E; cbn [rbind] in H; try done.
  rewrite (Hg _ _ _ Hi E). cbn [rbind]. apply read_varint_bounds in E; [|done].
  destruct (Z.land wire 7 =? 0).
  { destruct (read_varint d j0) as [[? ?]| |] eqn:E2; cbn [rbind] in H; try done.
    rewrite (Hg j0 _ _ ltac:(lia) E2). done. }
  destruct (Z.land wire 7 =? 1); [done|].
  destruct (Z.land wire 7 =? 2); [|done].
  destruct (read_varint d j0) as [[? ?]| |] eqn:E2; cbn [rbind] in H; try done.
  rewrite (Hg j0 _ _ ltac:(lia) E2). done.
Qed.

Lemma skip_one_cut d suf i depth j depth' :
  fits (d ++ suf) → 0 ≤ i → skip_one (d ++ suf) i depth = ROk (j, depth') → 0 ≤ j ≤ len d →
  skip_one d i depth = ROk (j, depth').
Proof.
  intros Hd Hi H Hj. unfold skip_one in *.
  destruct (read_varint (d ++ suf) i) as [[wire j0]| |] eqn:E; cbn [rbind] in H; try done.
  pose proof (read_varint_bounds _ _ _ _ Hi E) as Hb.
  unfold fits in Hd.
  assert (∀ k, 0 ≤ k < 2^63 → s64 (j0 + k) = j → j0 ≤ len d) as Hk.
  { intros k Hk He. destruct (s64_add j0 k); lia. }
  assert (j0 ≤ len d → rbind (read_varint d i) (λ '(w, i0), ROk (w, i0)) = ROk (wire, j0)) as Hw.
  { intros Hj0. rewrite (read_varint_cut _ _ _ _ _ Hi E Hj0). done. }
  assert (∀ a v b, 0 ≤ a → read_varint (d ++ suf) a = ROk (v, b) → b ≤ len d → read_varint d a = ROk (v, b)) as Hc.
  { intros a v b Ha. by apply read_varint_cut. }
  destruct (Z.land wire 7 =? 0) eqn:W0.
  { destruct (read_varint (d ++ suf) j0) as [[? ?]| |] eqn:E2; cbn [rbind] in H; try done. simplify_eq.
    pose proof (read_varint_bounds _ j0 _ _ ltac:(lia) E2).
    rewrite (Hc _ _ _ Hi E ltac:(lia)). cbn [rbind]. rewrite W0. rewrite (Hc j0 _ _ ltac:(lia) E2 ltac:(lia)). done. }
  destruct (Z.land wire 7 =? 1) eqn:W1.
  { rewrite (Hc _ _ _ Hi E). { cbn [rbind]. by rewrite W0, W1. }
    simplify_eq. eapply (Hk 8); [lia|done]. }
  destruct (Z.land wire 7 =? 2) eqn:W2.
  { destruct (read_varint (d ++ suf) j0) as [[v j1]| |] eqn:E2; cbn [rbind] in H; try done.
    pose proof (read_varint_bounds _ j0 _ _ ltac:(lia) E2). cbn zeta in *.
    pose proof (s64_range v).
    destruct (Z.ltb_spec (s64 v) 0) as [|Hv]; [done|]. simplify_eq.
    assert (j1 ≤ len d) by (destruct (s64_add j1 (s64 v)); lia).
    rewrite (Hc _ _ _ Hi E ltac:(lia)). cbn [rbind]. rewrite W0, W1, W2.
    rewrite (Hc j0 _ _ ltac:(lia) E2 ltac:(lia)). cbn [rbind].
    by rewrite (proj2 (Z.ltb_ge _ _)) by lia. }
  destruct (Z.land wire 7 =? 3) eqn:W3.
  { simplify_eq. rewrite (Hc _ _ _ Hi E ltac:(lia)). cbn [rbind]. by rewrite W0, W1, W2, W3. }
  destruct (Z.land wire 7 =? 4) eqn:W4.
  { destruct depth; [done|]. simplify_eq. rewrite (Hc _ _ _ Hi E ltac:(lia)). cbn [rbind]. by rewrite W0, W1, W2, W3, W4. }
  destruct (Z.land wire 7 =? 5) eqn:W5; [|done].
  { rewrite (Hc _ _ _ Hi E). { cbn [rbind]. by rewrite W0, W1, W2, W3, W4, W5. }
    simplify_eq. eapply (Hk 4); [lia|done]. }
Qed.

Lemma skip_loop_grow f d suf i depth n f' :
  fits d → 0 ≤ i → skip_loop f d i depth = ROk n → (f ≤ f')%nat → skip_loop f' (d ++ suf) i depth = ROk n.
Proof.
  intros Hd. revert f' i depth. induction f as [|f IH]; intros f' i depth Hi H Hf; [done|].
  destruct f' as [|f']; [lia|]. rewrite skip_loop_S in H |- *.
  destruct (Z.ltb_spec i (len d)) as [Hil|]; [|done].
  rewrite (proj2 (Z.ltb_lt _ _)) by (rewrite len_app; pose proof (len_nonneg suf); lia).
  destruct (skip_one d i depth) as [[j depth']| |] eqn:E; cbn [rbind] in H; try done.
  rewrite (skip_one_grow _ _ _ _ _ _ Hi E). cbn [rbind]. unfold skip_next in *.
  destruct (Z.ltb_spec j 0); [done|].
  destruct depth' as [|depth']; [done|]. apply IH; [lia|done|lia].
Qed.

Lemma skip_loop_bounds f d i depth n : fits d → 0 ≤ i → skip_loop f d i depth = ROk n → i < n < 2 ^ 63.
Proof.
  intros Hd. revert i depth. induction f as [|f IH]; intros i depth Hi H; [done|].
  rewrite skip_loop_S in H. destruct (i <? len d); [|done].
  destruct (skip_one d i depth) as [[j depth']| |] eqn:E; cbn [rbind] in H; try done.
  unfold skip_next in H. destruct (Z.ltb_spec j 0); [done|].
  apply skip_one_bounds in E; [|done|lia|lia].
  destruct depth' as [|depth']; [simplify_eq; lia|].
  apply IH in H; lia.
Qed.

Lemma skip_loop_cut f d suf i depth n :
  fits (d ++ suf) → 0 ≤ i → skip_loop f (d ++ suf) i depth = ROk n → n ≤ len d →
  skip_loop f d i depth = ROk n.
Proof.
  intros Hd. revert i depth. induction f as [|f IH]; intros i depth Hi H Hn; [done|].
  pose proof (skip_loop_bounds _ _ _ _ _ Hd Hi H) as Hbn.
  rewrite skip_loop_S in H |- *.
  rewrite (proj2 (Z.ltb_lt _ _)) by lia.
  destruct (Z.ltb_spec i (len (d ++ suf))) as [Hil|]; [|done].
  destruct (skip_one (d ++ suf) i depth) as [[j depth']| |] eqn:E; cbn [rbind] in H; try done.
  unfold skip_next in *. destruct (Z.ltb_spec j 0); [done|].
  assert (j ≤ len d).
  { destruct depth' as [|depth']; [simplify_eq; lia|].
    apply skip_loop_bounds in H; [lia|done|lia]. }
  rewrite (skip_one_cut _ _ _ _ _ _ Hd Hi E ltac:(lia)). cbn [rbind].
  rewrite (proj2 (Z.ltb_ge _ _)) by lia.
  destruct depth' as [|depth']; [done|]. by apply IH; [lia| |].
Qed.

Lemma skipEvent_any_fuel f d n : fits d → skip_loop f d 0 0 = ROk n → skipEvent d = ROk n.
Proof.
  intros Hd H. unfold skipEvent.
  pose proof (skip_loop_grow f d [] 0 0 n (Nat.max f (S (length d))) Hd ltac:(lia) H ltac:(lia)) as H1.
  pose proof (skipEvent_safe d Hd) as Hs. unfold skipEvent in Hs.
  destruct (skip_loop (S (length d)) d 0 0) as [m|e|] eqn:E; [| |done].
  - pose proof (skip_loop_grow _ d [] 0 0 m (Nat.max f (S (length d))) Hd ltac:(lia) E ltac:(lia)) as H2.
    congruence.
  - exfalso. clear Hs.
    (* an error persists with more fuel *)
    assert (∀ f f' i depth e, skip_loop f d i depth = RErr e → (f ≤ f')%nat → skip_loop f' d i depth = RErr e) as Herr.
    { clear. intros f. induction f as [|f IH]; intros f' i depth e H Hf; [done|].
      destruct f' as [|f']; [lia|]. rewrite skip_loop_S in H |- *.
      destruct (i <? len d); [|done].
      destruct (skip_one d i depth) as [[j depth']| |]; cbn [rbind] in *; try done.
      unfold skip_next in *. destruct (j <? 0); [done|]. destruct depth'; [done|]. apply IH; [done|lia]. }
    rewrite app_nil_r in H1. pose proof (Herr _ (Nat.max f (S (length d))) _ _ _ E ltac:(lia)). congruence.
Qed.

(** ** Unknown fields *)
(** One complete field whose number the message does not know. *)
Definition chunk (known : Z → bool) (c : bytes) : Prop :=
  (∃ num wt j, read_head c 0 = ROk (num, wt, j) ∧ known num = false) ∧ skipEvent c = ROk (len c).
(** What a message keeps in XXX_unrecognized: such fields one after the other. *)
Inductive unrec_ok (known : Z → bool) : bytes → Prop :=
| unrec_nil : unrec_ok known []
| unrec_cons c u : chunk known c → unrec_ok known u → unrec_ok known (c ++ u).

Lemma unrec_app known a b : unrec_ok known a → unrec_ok known b → unrec_ok known (a ++ b).
Proof. induction 1 as [|c u Hc Hu IH]; intros Hb; [done|]. rewrite <- app_assoc. constructor; auto. Qed.

Lemma chunk_nonempty known c : fits c → chunk known c → 0 < len c.
Proof. intros Hf [_ H]. pose proof (skipEvent_safe c Hf) as Hs. rewrite H in Hs. lia. Qed.

Lemma read_head_shift pre d suf i num wt j :
  0 ≤ i → read_head d i = ROk (num, wt, j) →
  read_head (pre ++ d ++ suf) (len pre + i) = ROk (num, wt, len pre + j).
Proof.
  intros Hi H. unfold read_head in *.
  destruct (read_varint d i) as [[v j0]| |] eqn:E; cbn [rbind] in *; try done.
  rewrite (read_varint_shift _ _ _ _ _ _ Hi E). cbn [rbind].
  destruct (_ =? 4); [done|]. destruct (_ <=? 0); [done|]. simplify_eq. done.
Qed.

Lemma slice_exact pre mid suf a b :
  a = len pre → b = len (pre ++ mid) → slice (pre ++ mid ++ suf) a b = ROk mid.
Proof.
  intros -> ->. unfold slice.
  rewrite (proj2 (Z.leb_le _ _)) by apply len_nonneg.
  rewrite (proj2 (Z.leb_le _ _)) by (rewrite len_app; pose proof (len_nonneg mid); lia).
  rewrite (proj2 (Z.leb_le _ _)) by (rewrite !len_app; pose proof (len_nonneg suf); lia).
  cbn [andb]. rewrite !len_to_nat. by rewrite slice_mid.
Qed.

Lemma read_unknown_ok known pre c suf limit :
  fits (pre ++ c ++ suf) → chunk known c → len (pre ++ c) ≤ limit →
  read_unknown (pre ++ c ++ suf) (len pre) limit = ROk (c, len (pre ++ c)).
Proof.
  intros Hd [_ Hs] Hl. unfold fits in Hd. rewrite !len_app in Hd.
  pose proof (len_nonneg pre). pose proof (len_nonneg c). pose proof (len_nonneg suf).
  unfold read_unknown.
  rewrite <- (app_nil_r (pre ++ c ++ suf)), <- app_assoc.
  rewrite (slice_exact pre (c ++ suf) []); [|done|by rewrite app_nil_r]. cbn [rbind].
  assert (skipEvent (c ++ suf) = ROk (len c)) as ->.
  { eapply (skipEvent_any_fuel (S (length c))).
    - unfold fits. rewrite len_app. lia.
    - eapply skip_loop_grow; [|lia|exact Hs|lia]. unfold fits. lia. }
  cbn [rbind]. rewrite s64_id by lia. rewrite <- len_app.
  rewrite (proj2 (Z.ltb_ge (len c) _)) by lia.
  rewrite (proj2 (Z.ltb_ge _ _)) by (rewrite len_app; lia). cbn [orb].
  rewrite Z.gtb_ltb, (proj2 (Z.ltb_ge _ _)) by lia.
  rewrite app_nil_r. rewrite slice_exact by done. done.
Qed.

(** Conversely, what is kept is a sequence of complete unknown fields. *)
Lemma read_unknown_chunk known d i limit num wt j0 u j :
  fits d → 0 ≤ i ≤ len d → limit ≤ len d →
  read_head d i = ROk (num, wt, j0) → known num = false →
  read_unknown d i limit = ROk (u, j) → chunk known u.
Proof.
  intros Hd Hi Hl Hh Hk H. unfold read_unknown in H.
  destruct (slice_safe d i (len d)) as (rest & Hrest & Hlr & Hdr); [lia|lia|].
  rewrite Hrest in H. cbn [rbind] in H.
  unfold fits in Hd. assert (fits rest) as Hfr by (unfold fits; lia).
  pose proof (skipEvent_safe rest Hfr) as Hsafe.
  destruct (skipEvent rest) as [n| |] eqn:Hs; cbn [rbind] in H; try done.
  destruct (Z.ltb_spec n 0); [done|]. destruct (Z.ltb_spec (s64 (i + n)) 0); [done|]. cbn [orb] in H.
  rewrite Z.gtb_ltb in H. destruct (Z.ltb_spec limit (s64 (i + n))); [done|].
  destruct (s64_add i n) as [?|He]; [lia|lia|lia|]. rewrite He in *.
  destruct (slice_safe d i (i + n)) as (c & Hc & Hlc & Hdc); [lia|lia|].
  rewrite Hc in H. cbn [rbind] in H. simplify_eq.
  set (pre := take (Z.to_nat i) d) in *. set (suf := drop (Z.to_nat (i + n)) d) in *.
  assert (len pre = i) as Hpre. { unfold pre, len. rewrite take_length. unfold len in Hi. lia. }
  assert (rest = u ++ suf) as Hr.
  { rewrite len_to_nat, (drop_ge d (length d)), app_nil_r in Hdr by lia.
    apply (app_inv_head pre). by rewrite <- Hdr, <- Hdc. }
  assert (skipEvent u = ROk (len u)) as Hsu.
  { rewrite Hr in Hs. unfold skipEvent in Hs.
    assert (fits u). { rewrite Hr in Hfr. unfold fits in *. rewrite len_app in Hfr. pose proof (len_nonneg suf). lia. }
    apply (skipEvent_any_fuel (S (length (u ++ suf)))); [done|].
    replace (len u) with n by lia. apply (skip_loop_cut _ u suf); [by rewrite <- Hr|lia|done|lia]. }
  split; [|done].
  (* the head lies within the chunk *)
  unfold read_head in *. rewrite Hdc in Hh.
  destruct (read_varint (pre ++ u ++ suf) i) as [[v jj]| |] eqn:E; cbn [rbind] in Hh; try done.
  destruct (Z.land v 7 =? 4) eqn:E4; [done|]. destruct (s32 (Z.shiftr v 3) <=? 0) eqn:En; [done|]. simplify_eq.
  unfold skipEvent in Hsu. rewrite skip_loop_S in Hsu. destruct (0 <? len u); [|done].
  unfold skip_one in Hsu. destruct (read_varint u 0) as [[v' j']| |] eqn:E'; cbn [rbind] in Hsu; try done.
  pose proof (read_varint_shift pre u suf 0 v' j' ltac:(lia) E') as E2.
  rewrite Z.add_0_r, Hpre, E in E2. simplify_eq.
  eexists _, _, _. cbn [rbind]. rewrite E4, En. done.
Qed.
