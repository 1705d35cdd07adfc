(** * Unmarshal computes what WireMeaning.v says *)
From Verif Require Export WireMeaning WireLocal.
Local Open Scope Z_scope.

(** ** Numbers *)
Lemma signed64 v : signed 64 v = s64 v.
Proof.
  unfold signed, s64. change (64 - 1) with 63.
  pose proof (Z.mod_pos_bound v (2^64) ltac:(lia)) as H.
  assert ((v + 2^63) mod 2^64 = (v mod 2^64 + 2^63) mod 2^64) as -> by (symmetry; apply Zplus_mod_idemp_l).
  set (x := v mod 2^64) in *. clearbody x. destruct (Z.ltb_spec x (2^63)).
  - rewrite Z.mod_small by lia. lia.
  - replace (x + 2^63) with (x - 2^63 + 1 * 2^64) by lia.
    rewrite Z.mod_add, Z.mod_small by lia. lia.
Qed.
Lemma signed32 v : signed 32 v = s32 v.
Proof.
  unfold signed, s32. change (32 - 1) with 31.
  pose proof (Z.mod_pos_bound v (2^32) ltac:(lia)) as H.
  assert ((v + 2^31) mod 2^32 = (v mod 2^32 + 2^31) mod 2^32) as -> by (symmetry; apply Zplus_mod_idemp_l).
  set (x := v mod 2^32) in *. clearbody x. destruct (Z.ltb_spec x (2^31)).
  - rewrite Z.mod_small by lia. lia.
  - replace (x + 2^31) with (x - 2^31 + 1 * 2^32) by lia.
    rewrite Z.mod_add, Z.mod_small by lia. lia.
Qed.
Lemma number_s32 key : number key = s32 (Z.shiftr key 3).
Proof. unfold number. rewrite signed32. by rewrite Z.shiftr_div_pow2 by lia. Qed.
Lemma land7 key : Z.land key 7 = key mod 8.
Proof. change 7 with (Z.ones 3). by rewrite Z.land_ones by lia. Qed.
Lemma base256_le s : base256 s = le_value s.
Proof. induction s as [|c s IH]; [done|]. simpl. by rewrite IH. Qed.

Lemma is_varint_u64 b v : is_varint b v → isU64 v.
Proof. intros [_ ->]. apply Z.mod_pos_bound. lia. Qed.
Lemma is_varint_len b v : is_varint b v → 1 ≤ len b.
Proof. intros [(init & last & -> & _) _]. rewrite len_app, len_cons. rewrite len_nil. pose proof (len_nonneg init). lia. Qed.

Lemma base128_nonneg b : 0 ≤ base128 b.
Proof. induction b as [|c b IH]; [done|]. simpl base128. pose proof (Z.mod_pos_bound (bval c) 128 ltac:(lia)). lia. Qed.

(** Adding one group. *)
Lemma add_group acc x shift : 0 ≤ shift < 64 → 0 ≤ acc < 2 ^ shift → 0 ≤ x →
  Z.lor acc (u64 (Z.shiftl x shift)) = (acc + x * 2 ^ shift) mod 2 ^ 64.
Proof.
  intros Hs Ha Hx. unfold u64. rewrite Z.shiftl_mul_pow2 by lia.
  assert (x * 2 ^ shift mod 2 ^ 64 = Z.shiftl (x mod 2 ^ (64 - shift)) shift) as ->.
  { rewrite Z.shiftl_mul_pow2 by lia. replace (2^64) with (2 ^ (64 - shift) * 2 ^ shift) by (rewrite <- Z.pow_add_r by lia; f_equal; lia).
    rewrite Z.mul_mod_distr_r; [done| |]; apply Z.pow_nonzero; lia. }
  pose proof (Z.mod_pos_bound x (2 ^ (64 - shift)) ltac:(apply Z.pow_pos_nonneg; lia)) as Hm.
  rewrite lor_shiftl_add by lia.
  assert (x * 2 ^ shift = x mod 2 ^ (64 - shift) * 2 ^ shift + (x / 2 ^ (64 - shift)) * 2 ^ 64) as ->.
  { replace (2^64) with (2 ^ (64 - shift) * 2 ^ shift) by (rewrite <- Z.pow_add_r by lia; f_equal; lia).
    rewrite (Z.div_mod x (2 ^ (64 - shift))) at 1 by (apply Z.pow_nonzero; lia). lia. }
  rewrite Z.add_assoc, Z.mod_add by lia. symmetry. apply Z.mod_small.
  assert (2 ^ (64 - shift) * 2 ^ shift = 2 ^ 64) by (rewrite <- Z.pow_add_r by lia; f_equal; lia).
  assert (0 < 2 ^ shift) by (apply Z.pow_pos_nonneg; lia). nia.
Qed.

Lemma drop_len (pre l : bytes) : drop (Z.to_nat (len pre)) (pre ++ l) = l.
Proof. rewrite len_to_nat. apply drop_app. Qed.

(** What the loop accepts from [l] on, given [shift] and [acc]. *)
Definition var_tail (l b l' : bytes) (shift acc v : Z) : Prop :=
  l = b ++ l' ∧
  (∃ init last, b = init ++ [last] ∧ Forall (λ c, 128 ≤ bval c) init ∧ bval last < 128 ∧
                shift + 7 * Z.of_nat (length init) < 64) ∧
  v = (acc + base128 b * 2 ^ shift) mod 2 ^ 64.

Lemma land127 c : Z.land (bval c) 127 = bval c mod 128.
Proof. change 127 with (Z.ones 7). by rewrite Z.land_ones by lia. Qed.

Lemma varint_from_sound f pre l shift acc v j :
  0 ≤ shift → 0 ≤ acc < 2 ^ shift → varint_from f (pre ++ l) (len pre) shift acc = ROk (v, j) →
  ∃ b l', var_tail l b l' shift acc v ∧ j = len (pre ++ b).
Proof.
  revert pre l shift acc. induction f as [|f IH]; intros pre l shift acc Hs Ha H; [done|].
  cbn [varint_from] in H. rewrite !Z.geb_leb in H.
  destruct (Z.leb_spec 64 shift); [done|]. destruct (Z.leb_spec (len (pre ++ l)) (len pre)) as [|Hl]; [done|].
  destruct l as [|c l]; [rewrite app_nil_r in Hl; lia|]. rewrite byte_at_app in H. cbn [rbind] in H.
  pose proof (Z.mod_pos_bound (bval c) 128 ltac:(lia)) as Hc.
  rewrite land127 in H. rewrite add_group in H by lia.
  destruct (Z.ltb_spec (bval c) 128) as [Hlt|Hge].
  - injection H as <- <-. exists [c], l. split.
    + split; [done|]. split; [exists [], c; split_and!; [done|apply List.Forall_nil|done|simpl; lia]|].
      simpl base128. f_equal. lia.
    + rewrite len_app, len_cons, len_nil. lia.
  - assert (acc + bval c mod 128 * 2 ^ shift < 2 ^ (shift + 7)) as Hnew.
    { rewrite Z.pow_add_r by lia. change (2^7) with 128. assert (0 < 2 ^ shift) by (apply Z.pow_pos_nonneg; lia). nia. }
    assert (0 ≤ acc + bval c mod 128 * 2 ^ shift) as Hnn.
    { assert (0 < 2 ^ shift) by (apply Z.pow_pos_nonneg; lia). nia. }
    replace (pre ++ c :: l) with ((pre ++ [c]) ++ l) in H by (by rewrite <- app_assoc).
    replace (len pre + 1) with (len (pre ++ [c])) in H by (rewrite len_app, len_cons, len_nil; lia).
    destruct (Z.le_gt_cases 64 (shift + 7)) as [Hbig|Hsmall].
    { destruct f as [|f]; [done|]. cbn [varint_from] in H. rewrite !Z.geb_leb in H.
      rewrite (proj2 (Z.leb_le _ _)) in H by lia. done. }
    rewrite (Z.mod_small (acc + _)) in H.
    2:{ split; [done|]. eapply Z.lt_le_trans; [exact Hnew|]. apply Z.pow_le_mono_r; lia. }
    apply IH in H; [|lia|done]. destruct H as (b & l' & (Hb & (init & last & -> & Hi & Hla & Hn) & Hv) & ->).
    exists (c :: init ++ [last]), l'. split; [|by rewrite <- app_assoc].
    split; [by rewrite Hb|]. split.
    { exists (c :: init), last. split_and!; [done|by constructor|done|]. simpl length. lia. }
    rewrite Hv. simpl base128. f_equal. rewrite Z.pow_add_r by lia. change (2^7) with 128. lia.
Qed.

Lemma varint_from_complete f pre init last l' shift acc :
  0 ≤ shift → 0 ≤ acc < 2 ^ shift → (length init < f)%nat →
  Forall (λ c, 128 ≤ bval c) init → bval last < 128 → shift + 7 * Z.of_nat (length init) < 64 →
  varint_from f (pre ++ (init ++ [last]) ++ l') (len pre) shift acc
    = ROk ((acc + base128 (init ++ [last]) * 2 ^ shift) mod 2 ^ 64, len (pre ++ init ++ [last])).
Proof.
  revert f pre shift acc. induction init as [|c init IH]; intros f pre shift acc Hs Ha Hf Hi Hl Hn.
  - destruct f as [|f]; [simpl in Hf; lia|]. cbn [varint_from]. rewrite !Z.geb_leb. simpl length in Hn.
    rewrite (proj2 (Z.leb_gt _ _)) by lia.
    rewrite (proj2 (Z.leb_gt _ _)) by (simpl; rewrite len_app, len_cons; pose proof (len_nonneg l'); lia).
    simpl app. rewrite byte_at_app. cbn [rbind]. pose proof (Z.mod_pos_bound (bval last) 128 ltac:(lia)).
    rewrite land127, add_group by lia. rewrite (proj2 (Z.ltb_lt _ _)) by lia. simpl base128.
    f_equal. f_equal; [f_equal; lia|]. rewrite len_app, len_cons, len_nil. lia.
  - destruct f as [|f]; [simpl in Hf; lia|]. simpl length in Hn, Hf. cbn [varint_from]. rewrite !Z.geb_leb.
    apply Forall_cons in Hi as [Hc Hi].
    rewrite (proj2 (Z.leb_gt _ _)) by lia.
    rewrite (proj2 (Z.leb_gt _ _)) by (simpl; rewrite len_app, len_cons; pose proof (len_nonneg ((init ++ [last]) ++ l')); lia).
    simpl app. rewrite byte_at_app. cbn [rbind]. pose proof (Z.mod_pos_bound (bval c) 128 ltac:(lia)).
    rewrite land127, add_group by lia. rewrite (proj2 (Z.ltb_ge _ _)) by lia.
    assert (acc + bval c mod 128 * 2 ^ shift < 2 ^ (shift + 7)) as Hnew.
    { rewrite Z.pow_add_r by lia. change (2^7) with 128. assert (0 < 2 ^ shift) by (apply Z.pow_pos_nonneg; lia). nia. }
    assert (0 ≤ acc + bval c mod 128 * 2 ^ shift) as Hnn.
    { assert (0 < 2 ^ shift) by (apply Z.pow_pos_nonneg; lia). nia. }
    rewrite (Z.mod_small (acc + _)).
    2:{ split; [done|]. eapply Z.lt_le_trans; [exact Hnew|]. apply Z.pow_le_mono_r; lia. }
    replace (pre ++ c :: (init ++ [last]) ++ l') with ((pre ++ [c]) ++ (init ++ [last]) ++ l') by (by rewrite <- app_assoc).
    replace (len pre + 1) with (len (pre ++ [c])) by (rewrite len_app, len_cons, len_nil; lia).
    rewrite IH by (done || lia). f_equal. f_equal; [|f_equal; by rewrite <- app_assoc].
    simpl base128. f_equal. rewrite Z.pow_add_r by lia. change (2^7) with 128. lia.
Qed.

Lemma read_varint_sound pre l v j : read_varint (pre ++ l) (len pre) = ROk (v, j) →
  ∃ b l', l = b ++ l' ∧ is_varint b v ∧ j = len (pre ++ b).
Proof.
  intros H. unfold read_varint in H. apply varint_from_sound in H as (b & l' & (-> & (init & last & -> & Hi & Hl & Hn) & ->) & ->);
    [|lia|simpl; lia].
  exists (init ++ [last]), l'. split_and!; [done| |done]. split.
  - exists init, last. split_and!; [done|done|done|lia].
  - f_equal. simpl. lia.
Qed.
Lemma read_varint_complete pre b l' v : is_varint b v →
  read_varint (pre ++ b ++ l') (len pre) = ROk (v, len (pre ++ b)).
Proof.
  intros [(init & last & -> & Hi & Hl & Hn) ->]. unfold read_varint.
  rewrite varint_from_complete by (done || lia || (simpl; lia)). f_equal. f_equal. f_equal. simpl. lia.
Qed.

(** ** Lengths *)
Lemma read_len_sound pre l a e : fits (pre ++ l) → read_len (pre ++ l) (len pre) = ROk (a, e) →
  ∃ b n s l', l = b ++ s ++ l' ∧ is_varint b n ∧ len s = n ∧ a = len (pre ++ b) ∧ e = len (pre ++ b ++ s).
Proof.
  intros Hd H. unfold read_len in H. destruct (read_varint (pre ++ l) (len pre)) as [[v j]| |] eqn:E; cbn [rbind] in H; try done.
  apply read_varint_sound in E as (b & l1 & -> & Hb & ->).
  destruct (Z.ltb_spec (s64 v) 0); [done|]. destruct (Z.ltb_spec (s64 (len (pre ++ b) + s64 v)) 0); [done|].
  destruct (Z.gtb_spec (s64 (len (pre ++ b) + s64 v)) (len (pre ++ b ++ l1))) as [|Hle]; [done|].
  pose proof (is_varint_u64 _ _ Hb) as Hu. unfold isU64 in Hu.
  assert (s64 v = v) as Hv.
  { destruct (Z.lt_ge_cases v (2^63)); [apply s64_id; lia|]. pose proof (s64_wrap v ltac:(lia)). lia. }
  rewrite Hv in *. unfold fits in Hd. rewrite !len_app in *. pose proof (len_nonneg pre). pose proof (len_nonneg b). pose proof (len_nonneg l1).
  assert (v < 2^63) by (pose proof (s64_range v); lia).
  destruct (s64_add (len pre + len b) v) as [|Heq]; [lia|lia|lia|]. rewrite Heq in *. injection H as <- <-.
  exists b, v, (take (Z.to_nat v) l1), (drop (Z.to_nat v) l1). 
  assert (len (take (Z.to_nat v) l1) = v) as Hlen.
  { unfold len in *. rewrite take_length_le by lia. lia. }
  split_and!; [by rewrite take_drop|done|done|by rewrite len_app|]. rewrite !len_app, Hlen. lia.
Qed.
Lemma read_len_complete pre b n s l' : fits (pre ++ b ++ s ++ l') → is_varint b n → len s = n →
  read_len (pre ++ b ++ s ++ l') (len pre) = ROk (len (pre ++ b), len (pre ++ b ++ s)).
Proof.
  intros Hd Hb Hs. unfold read_len. rewrite read_varint_complete with (v := n) by done. cbn [rbind].
  unfold fits in Hd. rewrite !len_app in *. pose proof (len_nonneg pre). pose proof (len_nonneg b). pose proof (len_nonneg s). pose proof (len_nonneg l').
  rewrite (s64_id n) by lia. rewrite (proj2 (Z.ltb_ge _ _)) by lia. rewrite s64_id by lia.
  rewrite (proj2 (Z.ltb_ge _ _)) by lia. rewrite Z.gtb_ltb, (proj2 (Z.ltb_ge _ _)) by lia. f_equal. f_equal. lia.
Qed.

(** ** The same, with the position given by a split of the buffer *)
Lemma split_at (d pre l : bytes) j : d = pre ++ l → len pre ≤ j ≤ len d →
  ∃ s l', l = s ++ l' ∧ d = (pre ++ s) ++ l' ∧ len s = j - len pre ∧ j = len (pre ++ s).
Proof.
  intros -> H. rewrite len_app in H. exists (take (Z.to_nat (j - len pre)) l), (drop (Z.to_nat (j - len pre)) l).
  assert (len (take (Z.to_nat (j - len pre)) l) = j - len pre) as Hl.
  { unfold len in *. rewrite take_length_le by lia. lia. }
  split_and!; [by rewrite take_drop|by rewrite <- app_assoc, take_drop|done|]. rewrite len_app, Hl. lia.
Qed.
Lemma varint_at d pre l v j : d = pre ++ l → read_varint d (len pre) = ROk (v, j) →
  ∃ b l', l = b ++ l' ∧ d = (pre ++ b) ++ l' ∧ is_varint b v ∧ j = len (pre ++ b).
Proof.
  intros -> H. apply read_varint_sound in H as (b & l' & -> & Hb & ->). exists b, l'. by rewrite <- app_assoc.
Qed.
Lemma len_at d pre l a e : d = pre ++ l → fits d → read_len d (len pre) = ROk (a, e) →
  ∃ b n s l', l = b ++ s ++ l' ∧ d = (pre ++ b ++ s) ++ l' ∧ is_varint b n ∧ len s = n ∧
    a = len (pre ++ b) ∧ e = len (pre ++ b ++ s) ∧ slice d a e = ROk s.
Proof.
  intros -> Hd H. apply read_len_sound in H as (b & n & s & l' & -> & Hb & Hs & -> & ->); [|done].
  exists b, n, s, l'. split_and!; try done; [by rewrite <- !app_assoc|].
  replace (pre ++ b ++ s ++ l') with ((pre ++ b) ++ s ++ l') by (by rewrite <- app_assoc).
  apply slice_exact; [done|]. by rewrite <- app_assoc.
Qed.
Lemma varint_there d pre b l' v : d = (pre ++ b) ++ l' → is_varint b v → read_varint d (len pre) = ROk (v, len (pre ++ b)).
Proof. intros -> H. rewrite <- app_assoc. by apply read_varint_complete. Qed.
Lemma len_there d pre b n s l' : d = (pre ++ b ++ s) ++ l' → fits d → is_varint b n → len s = n →
  read_len d (len pre) = ROk (len (pre ++ b), len (pre ++ b ++ s)) ∧ slice d (len (pre ++ b)) (len (pre ++ b ++ s)) = ROk s.
Proof.
  intros -> Hd Hb Hs. split.
  - rewrite <- !app_assoc in *. by apply read_len_complete with (n := n).
  - replace ((pre ++ b ++ s) ++ l') with ((pre ++ b) ++ s ++ l') by (by rewrite <- !app_assoc).
    apply slice_exact; [done|]. by rewrite <- app_assoc.
Qed.

(** ** Skipping a field *)
Inductive after : nat → bytes → Prop :=
| after_0 : after 0 []
| after_S k g c : group g → after k c → after (S k) (g ++ c).

Ltac grp := rewrite <- ?app_assoc; reflexivity.
Ltac asc H := rewrite H; rewrite <- ?app_assoc; reflexivity.

Lemma skip_sound f : ∀ d pre l n, d = pre ++ l → fits d → n ≤ len d →
  (skip_loop f d (len pre) 0 = ROk n →
     ∃ raw num p l', l = raw ++ l' ∧ d = (pre ++ raw) ++ l' ∧ field raw num p ∧ n = len (pre ++ raw)) ∧
  (∀ k, skip_loop f d (len pre) (S k) = ROk n →
     ∃ c l', l = c ++ l' ∧ d = (pre ++ c) ++ l' ∧ after (S k) c ∧ n = len (pre ++ c)).
Proof.
  induction f as [|f IH]; intros d pre l n Hd Hf Hn; [done|].
  (* one turn *)
  assert (∀ depth, skip_loop (S f) d (len pre) depth = ROk n →
    (∃ raw num p l1, l = raw ++ l1 ∧ d = (pre ++ raw) ++ l1 ∧ field raw num p ∧
        skip_next f d (len (pre ++ raw)) depth = ROk n) ∨
    (∃ k key l1, l = k ++ l1 ∧ d = (pre ++ k) ++ l1 ∧ is_varint k key ∧ key mod 8 = 3 ∧
        skip_next f d (len (pre ++ k)) (S depth) = ROk n) ∨
    (∃ k key l1 depth', l = k ++ l1 ∧ d = (pre ++ k) ++ l1 ∧ is_varint k key ∧ key mod 8 = 4 ∧ depth = S depth' ∧
        skip_next f d (len (pre ++ k)) depth' = ROk n)) as Hturn.
  { intros depth H. rewrite skip_loop_S in H. destruct (len pre <? len d); [|done].
    destruct (skip_one d (len pre) depth) as [[j depth']| |] eqn:E; cbn [rbind] in H; try done.
    assert (0 ≤ j ∧ j ≤ len d) as Hj.
    { unfold skip_next in H. destruct (Z.ltb_spec j 0); [done|]. split; [done|].
      destruct depth' as [|dd]; [injection H as <-; lia|]. destruct f as [|f']; [done|]. rewrite skip_loop_S in H.
      destruct (Z.ltb_spec j (len d)); [lia|done]. }
    pose proof (skip_one_bounds d (len pre) depth j depth' Hf (len_nonneg _) E ltac:(lia)) as Hjb.
    unfold skip_one in E. destruct (read_varint d (len pre)) as [[key i]| |] eqn:Ek; cbn [rbind] in E; try done.
    apply (varint_at d pre l) in Ek as (k & l1 & -> & Hd1 & Hk & ->); [|done].
    rewrite land7 in E. pose proof (len_nonneg (pre ++ k)). unfold fits in Hf.
    assert (len (pre ++ k) ≤ len d) by (rewrite Hd1, (len_app (pre ++ k)); pose proof (len_nonneg l1); lia).
    assert (∀ m, 0 ≤ m → j = s64 (len (pre ++ k) + m) → m < 2 ^ 63 → depth' = depth →
      ∃ s l2, l1 = s ++ l2 ∧ d = (pre ++ k ++ s) ++ l2 ∧ len s = m ∧ j = len (pre ++ k ++ s)) as Hfix.
    { intros m Hm Hjm Hm2 _. destruct (s64_add (len (pre ++ k)) m) as [|Heq]; [lia|lia|lia|].
      destruct (split_at d (pre ++ k) l1 j Hd1 ltac:(lia)) as (s & l2 & -> & Hd2 & Hs & Hj2).
      exists s, l2. split_and!; [done|asc Hd2|lia|asc Hj2]. }
    destruct (Z.eqb_spec (key mod 8) 0) as [Hw0|_].
    { destruct (read_varint d (len (pre ++ k))) as [[v i2]| |] eqn:Ev; cbn [rbind] in E; try done. injection E as <- <-.
      apply (varint_at d (pre ++ k) l1) in Ev as (b & l2 & -> & Hd2 & Hb & ->); [|done].
      left. exists (k ++ b), (number key), (PVarint v), l2. rewrite <- app_assoc in H.
      split_and!; [grp|asc Hd2|by econstructor|done]. }
    destruct (Z.eqb_spec (key mod 8) 1) as [Hw1|_].
    { injection E as <- <-. destruct (Hfix 8) as (s & l2 & -> & Hd2 & Hs & Hj2); [lia|done|lia|done|]. rewrite Hj2 in H.
      left. exists (k ++ s), (number key), (PFixed64 s), l2. split_and!; [grp|done|by econstructor|done]. }
    destruct (Z.eqb_spec (key mod 8) 2) as [Hw2|_].
    { destruct (read_varint d (len (pre ++ k))) as [[v i2]| |] eqn:Ev; cbn [rbind] in E; try done.
      apply (varint_at d (pre ++ k) l1) in Ev as (b & l2 & -> & Hd2 & Hb & ->); [|done].
      destruct (Z.ltb_spec (s64 v) 0) as [|Hv]; [done|]. injection E as Hj2 <-.
      pose proof (is_varint_u64 _ _ Hb) as Hu. unfold isU64 in Hu.
      assert (s64 v = v) as Hvv.
      { destruct (Z.lt_ge_cases v (2^63)); [apply s64_id; lia|]. pose proof (s64_wrap v ltac:(lia)). lia. }
      pose proof (s64_range v). rewrite Hvv in *.
      assert (len ((pre ++ k) ++ b) ≤ len d) by (rewrite Hd2, (len_app ((pre ++ k) ++ b)); pose proof (len_nonneg l2); lia).
      pose proof (len_nonneg ((pre ++ k) ++ b)).
      destruct (s64_add (len ((pre ++ k) ++ b)) v) as [|Heq]; [lia|lia|lia|].
      destruct (split_at d ((pre ++ k) ++ b) l2 j Hd2 ltac:(lia)) as (s & l3 & -> & Hd3 & Hs & Hj3).
      rewrite <- !app_assoc in Hj3.
      left. exists (k ++ b ++ s), (number key), (PBytes s), l3. rewrite Hj3 in H.
      split_and!; [grp|asc Hd3|econstructor; try done; lia|done]. }
    destruct (Z.eqb_spec (key mod 8) 3) as [Hw3|_].
    { injection E as <- <-. right; left. exists k, key, l1. done. }
    destruct (Z.eqb_spec (key mod 8) 4) as [Hw4|_].
    { destruct depth as [|dd]; [done|]. injection E as <- <-. right; right. exists k, key, l1, dd. done. }
    destruct (Z.eqb_spec (key mod 8) 5) as [Hw5|_]; [|done].
    injection E as <- <-. destruct (Hfix 4) as (s & l2 & -> & Hd2 & Hs & Hj2); [lia|done|lia|done|]. rewrite Hj2 in H.
    left. exists (k ++ s), (number key), (PFixed32 s), l2. split_and!; [grp|done|by econstructor|done]. }
  assert (∀ i depth, 0 ≤ i → skip_next f d i (S depth) = skip_loop f d i (S depth)) as Hnext.
  { intros i depth Hi. unfold skip_next. by rewrite (proj2 (Z.ltb_ge _ _)) by lia. }
  assert (∀ i, 0 ≤ i → skip_next f d i 0 = ROk i) as Hnext0.
  { intros i Hi. unfold skip_next. by rewrite (proj2 (Z.ltb_ge _ _)) by lia. }
  split.
  - intros H. apply Hturn in H as [(raw & num & p & l1 & Hl & Hd1 & Hfd & H)|[(k & key & l1 & Hl & Hd1 & Hk & H3 & H)|(k & key & l1 & dd & _ & _ & _ & _ & ? & _)]]; [| |done].
    + rewrite Hnext0 in H by apply len_nonneg. injection H as <-. by exists raw, num, p, l1.
    + rewrite Hnext in H by apply len_nonneg. destruct (IH d (pre ++ k) l1 n Hd1 Hf Hn) as [_ IH1].
      destruct (IH1 _ H) as (c & l2 & -> & Hd2 & Ha & ->). inversion Ha as [|? g c' Hg Ha']; subst. inversion Ha'; subst.
      exists (k ++ g ++ []), (number key), PGroup, l2. rewrite app_nil_r in *.
      split_and!; [grp|by rewrite Hd2, <- !app_assoc|by eapply f_group|grp].
  - intros kk H. apply Hturn in H as [(raw & num & p & l1 & Hl & Hd1 & Hfd & H)|[(k & key & l1 & Hl & Hd1 & Hk & H3 & H)|(k & key & l1 & dd & Hl & Hd1 & Hk & H4 & Heq & H)]].
    + rewrite Hnext in H by apply len_nonneg. destruct (IH d (pre ++ raw) l1 n Hd1 Hf Hn) as [_ IH1].
      destruct (IH1 _ H) as (c & l2 & -> & Hd2 & Ha & ->). inversion Ha as [|? g c' Hg Ha']; subst l c.
      exists ((raw ++ g) ++ c'), l2. split_and!; [grp|by rewrite Hd2, <- !app_assoc|constructor; [by eapply g_field|done]|grp].
    + rewrite Hnext in H by apply len_nonneg. destruct (IH d (pre ++ k) l1 n Hd1 Hf Hn) as [_ IH1].
      destruct (IH1 _ H) as (c & l2 & -> & Hd2 & Ha & ->). inversion Ha as [|? g c' Hg Ha']; subst. inversion Ha' as [|? g2 c2 Hg2 Ha2]; subst.
      exists (((k ++ g) ++ g2) ++ c2), l2. split_and!; [grp|by rewrite Hd2, <- !app_assoc| |grp].
      constructor; [|done]. eapply g_field; [|done]. by eapply f_group.
    + injection Heq as <-. destruct kk as [|kk].
      * rewrite Hnext0 in H by apply len_nonneg. injection H as <-. exists (k ++ []), l1. rewrite app_nil_r.
        split_and!; [done|done| |done]. rewrite <- (app_nil_r k). constructor; [by eapply g_end|constructor].
      * rewrite Hnext in H by apply len_nonneg. destruct (IH d (pre ++ k) l1 n Hd1 Hf Hn) as [_ IH1].
        destruct (IH1 _ H) as (c & l2 & -> & Hd2 & Ha & ->).
        exists (k ++ c), l2. split_and!; [by subst l; grp|by rewrite Hd2, <- !app_assoc|constructor; [by eapply g_end|done]|grp].
Qed.

Lemma skip_complete :
  (∀ raw num p, field raw num p → ∀ d pre l' depth f, d = (pre ++ raw) ++ l' → fits d →
     ∃ f', skip_loop f' d (len pre) depth = skip_next f d (len (pre ++ raw)) depth) ∧
  (∀ body, group body → ∀ d pre l' depth f, d = (pre ++ body) ++ l' → fits d →
     ∃ f', skip_loop f' d (len pre) (S depth) = skip_next f d (len (pre ++ body)) depth).
Proof.
  assert (∀ d pre k key l' depth f, d = (pre ++ k) ++ l' → is_varint k key →
     skip_loop (S f) d (len pre) depth =
     rbind (if (key mod 8 =? 0)%Z then rbind (read_varint d (len (pre ++ k))) (λ '(_, i), ROk (i, depth))
            else if (key mod 8 =? 1)%Z then ROk (s64 (len (pre ++ k) + 8), depth)
            else if (key mod 8 =? 2)%Z then
              rbind (read_varint d (len (pre ++ k))) (λ '(v, i), let n := s64 v in
                if (n <? 0)%Z then RErr EInvalidLength else ROk (s64 (i + n), depth))
            else if (key mod 8 =? 3)%Z then ROk (len (pre ++ k), S depth)
            else if (key mod 8 =? 4)%Z then match depth with O => RErr EEndGroup | S depth' => ROk (len (pre ++ k), depth') end
            else if (key mod 8 =? 5)%Z then ROk (s64 (len (pre ++ k) + 4), depth)
            else RErr (EIllegalWireType (key mod 8))) (λ '(j, depth'), skip_next f d j depth')) as Hturn.
  { intros d pre k key l' depth f Hd Hk. rewrite skip_loop_S.
    rewrite (proj2 (Z.ltb_lt _ _)).
    2:{ rewrite Hd, !len_app. pose proof (is_varint_len _ _ Hk). pose proof (len_nonneg l'). lia. }
    unfold skip_one. rewrite (varint_there d pre k l' key) by done. cbn [rbind]. by rewrite land7. }
  assert (∀ (d pre k s l' : bytes) m, d = (pre ++ k ++ s) ++ l' → fits d → len s = m → s64 (len (pre ++ k) + m) = len (pre ++ k ++ s)) as Hfix.
  { intros d pre k s l' m Hd Hf Hs. unfold fits in Hf. rewrite Hd in Hf. rewrite !len_app in *.
    pose proof (len_nonneg pre). pose proof (len_nonneg k). pose proof (len_nonneg s). pose proof (len_nonneg l').
    rewrite s64_id by lia. lia. }
  apply field_mutind.
  - intros k key b v Hk Hm Hb d pre l' depth f Hd Hf. exists (S f).
    rewrite (Hturn d pre k key (b ++ l')) by (done || (asc Hd)). rewrite Hm. simpl (_ =? _).
    rewrite (varint_there d (pre ++ k) b l' v) by (done || (asc Hd)). cbn [rbind]. by rewrite <- app_assoc.
  - intros k key s Hk Hm Hs d pre l' depth f Hd Hf. exists (S f).
    rewrite (Hturn d pre k key (s ++ l')) by (done || (asc Hd)). rewrite Hm. simpl (_ =? _). cbn [rbind].
    by rewrite (Hfix d pre k s l').
  - intros k key b n s Hk Hm Hb Hs d pre l' depth f Hd Hf. exists (S f).
    rewrite (Hturn d pre k key (b ++ s ++ l')) by (done || (asc Hd)). rewrite Hm. simpl (_ =? _).
    rewrite (varint_there d (pre ++ k) b (s ++ l') n) by (done || (asc Hd)). cbn [rbind].
    assert (0 ≤ n < 2 ^ 63) as Hn.
    { unfold fits in Hf. rewrite Hd in Hf. rewrite !len_app in Hf. pose proof (len_nonneg pre). pose proof (len_nonneg k).
      pose proof (len_nonneg s). pose proof (len_nonneg b). pose proof (len_nonneg l'). lia. }
    cbv zeta. rewrite (s64_id n) by lia. rewrite (proj2 (Z.ltb_ge _ _)) by lia. cbn [rbind].
    rewrite (Hfix d (pre ++ k) b s l'); [|asc Hd|done|done]. by rewrite <- app_assoc.
  - intros k key body Hk Hm _ IH d pre l' depth f Hd Hf.
    destruct (IH d (pre ++ k) l' depth f) as (f' & Hf'); [asc Hd|done|].
    exists (S f'). rewrite (Hturn d pre k key (body ++ l')) by (done || (asc Hd)). rewrite Hm. simpl (_ =? _). cbn [rbind].
    unfold skip_next at 1. rewrite (proj2 (Z.ltb_ge _ _)) by apply len_nonneg. rewrite Hf'. by rewrite <- app_assoc.
  - intros k key s Hk Hm Hs d pre l' depth f Hd Hf. exists (S f).
    rewrite (Hturn d pre k key (s ++ l')) by (done || (asc Hd)). rewrite Hm. simpl (_ =? _). cbn [rbind].
    by rewrite (Hfix d pre k s l').
  - intros k key Hk Hm d pre l' depth f Hd Hf. exists (S f).
    rewrite (Hturn d pre k key l') by done. rewrite Hm. simpl (_ =? _). done.
  - intros raw num p body _ IH1 _ IH2 d pre l' depth f Hd Hf.
    destruct (IH2 d (pre ++ raw) l' depth f) as (f2 & Hf2); [asc Hd|done|].
    destruct (IH1 d pre (body ++ l') (S depth) f2) as (f1 & Hf1); [asc Hd|done|].
    exists f1. rewrite Hf1. unfold skip_next at 1. rewrite (proj2 (Z.ltb_ge _ _)) by apply len_nonneg.
    rewrite Hf2. by rewrite <- app_assoc.
Qed.

Lemma skipEvent_sound d n : fits d → n ≤ len d → skipEvent d = ROk n →
  ∃ raw num p l', d = raw ++ l' ∧ field raw num p ∧ n = len raw.
Proof.
  intros Hf Hn H. destruct (skip_sound (S (length d)) d [] d n eq_refl Hf Hn) as [H0 _].
  destruct (H0 H) as (raw & num & p & l' & -> & _ & Hr & ->). by exists raw, num, p, l'.
Qed.
Lemma skipEvent_complete raw num p l' : fits (raw ++ l') → field raw num p → skipEvent (raw ++ l') = ROk (len raw).
Proof.
  intros Hf Hr. destruct (proj1 skip_complete raw num p Hr (raw ++ l') [] l' 0%nat 0%nat) as (f & H); [done|done|].
  apply (skipEvent_any_fuel f); [done|]. change 0 with (len []) at 1. rewrite H. unfold skip_next.
  by rewrite (proj2 (Z.ltb_ge _ _)) by apply len_nonneg.
Qed.

Lemma unknown_at d pre l limit u j : d = pre ++ l → fits d → limit ≤ len d → read_unknown d (len pre) limit = ROk (u, j) →
  ∃ num p l', l = u ++ l' ∧ d = (pre ++ u) ++ l' ∧ field u num p ∧ j = len (pre ++ u) ∧ len (pre ++ u) ≤ limit.
Proof.
  intros Hd Hf Hlim H. unfold read_unknown in H.
  assert (slice d (len pre) (len d) = ROk l) as Hs.
  { rewrite Hd. rewrite <- (app_nil_r l) at 1. apply slice_exact; [done|]. by rewrite ?app_nil_r. }
  rewrite Hs in H. cbn [rbind] in H.
  assert (fits l) as Hfl by (unfold fits in *; rewrite Hd, len_app in Hf; pose proof (len_nonneg pre); lia).
  destruct (skipEvent l) as [n| |] eqn:E; cbn [rbind] in H; try done.
  pose proof (skipEvent_safe l Hfl) as Hsafe. rewrite E in Hsafe.
  destruct (Z.ltb_spec n 0); [done|]. cbn [orb] in H. destruct (Z.ltb_spec (s64 (len pre + n)) 0); [done|].
  assert (len pre < 2 ^ 63) by (unfold fits in Hf; rewrite Hd, len_app in Hf; pose proof (len_nonneg l); lia).
  pose proof (len_nonneg pre).
  destruct (s64_add (len pre) n) as [|Heq]; [lia|lia|lia|]. rewrite Heq in H.
  rewrite Z.gtb_ltb in H. destruct (Z.ltb_spec limit (len pre + n)); [done|].
  assert (n ≤ len l) as Hnl by (rewrite Hd, len_app in Hlim; lia).
  apply skipEvent_sound in E as (raw & num & p & l' & -> & Hr & ->); [|done|done].
  assert (slice d (len pre) (len pre + len raw) = ROk raw) as Hsl.
  { rewrite Hd. apply slice_exact; [done|by rewrite len_app]. }
  rewrite Hsl in H. cbn [rbind] in H. injection H as <- <-. exists num, p, l'. rewrite len_app.
  split_and!; [done|asc Hd|done|done|done].
Qed.
Lemma unknown_there d pre u l' limit num p : d = (pre ++ u) ++ l' → fits d → field u num p → len (pre ++ u) ≤ limit →
  read_unknown d (len pre) limit = ROk (u, len (pre ++ u)).
Proof.
  intros Hd Hf Hr Hl. unfold read_unknown.
  assert (slice d (len pre) (len d) = ROk (u ++ l')) as ->.
  { rewrite Hd. rewrite <- app_assoc, <- (app_nil_r (u ++ l')) at 1. apply slice_exact; [done|]. by rewrite ?app_nil_r, ?app_assoc. }
  cbn [rbind]. unfold fits in Hf. rewrite Hd, !len_app in Hf. pose proof (len_nonneg pre). pose proof (len_nonneg u). pose proof (len_nonneg l').
  rewrite (skipEvent_complete u num p l') by (done || (unfold fits; rewrite len_app; lia)). cbn [rbind].
  rewrite len_app in Hl. rewrite s64_id by lia. rewrite (proj2 (Z.ltb_ge _ _)) by lia. cbn [orb].
  rewrite (proj2 (Z.ltb_ge _ _)) by lia. rewrite Z.gtb_ltb, (proj2 (Z.ltb_ge _ _)) by lia.
  assert (slice d (len pre) (len pre + len u) = ROk u) as ->.
  { rewrite Hd, <- app_assoc. apply slice_exact; [done|by rewrite len_app]. }
  cbn [rbind]. by rewrite len_app.
Qed.

Lemma head_at d pre l num wt j : d = pre ++ l → read_head d (len pre) = ROk (num, wt, j) →
  ∃ k key l', l = k ++ l' ∧ d = (pre ++ k) ++ l' ∧ is_varint k key ∧ num = number key ∧ wt = key mod 8 ∧
    j = len (pre ++ k) ∧ wt ≠ 4 ∧ 0 < num.
Proof.
  intros Hd H. unfold read_head in H. destruct (read_varint d (len pre)) as [[key i]| |] eqn:E; cbn [rbind] in H; try done.
  apply (varint_at d pre l) in E as (k & l' & -> & Hd1 & Hk & ->); [|done].
  rewrite land7, <- number_s32 in H. destruct (Z.eqb_spec (key mod 8) 4); [done|].
  destruct (Z.leb_spec (number key) 0); [done|]. injection H as <- <- <-. exists k, key, l'. done.
Qed.
Lemma head_there d pre k key l' : d = (pre ++ k) ++ l' → is_varint k key → key mod 8 ≠ 4 → 0 < number key →
  read_head d (len pre) = ROk (number key, key mod 8, len (pre ++ k)).
Proof.
  intros Hd Hk H4 Hn. unfold read_head. rewrite (varint_there d pre k l' key) by done. cbn [rbind].
  rewrite land7, <- number_s32. rewrite (proj2 (Z.eqb_neq _ _)) by done. by rewrite (proj2 (Z.leb_gt _ _)) by lia.
Qed.

(** Fields seen from their payload. *)
Lemma field_key raw num p : field raw num p →
  ∃ k key rest, raw = k ++ rest ∧ is_varint k key ∧ num = number key ∧ key mod 8 ≠ 4.
Proof. intros H. inversion H; subst; eexists _, _, _; (split_and!; [reflexivity|done|done|lia]). Qed.
Lemma field_varint raw num v : field raw num (PVarint v) →
  ∃ k key b, raw = k ++ b ∧ is_varint k key ∧ num = number key ∧ key mod 8 = 0 ∧ is_varint b v.
Proof. intros H. inversion H; subst. by eexists _, _, _. Qed.
Lemma field_bytes raw num s : field raw num (PBytes s) →
  ∃ k key b n, raw = k ++ b ++ s ∧ is_varint k key ∧ num = number key ∧ key mod 8 = 2 ∧ is_varint b n ∧ len s = n.
Proof. intros H. inversion H; subst. by eexists _, _, _, _. Qed.
Lemma field_fixed64 raw num s : field raw num (PFixed64 s) →
  ∃ k key, raw = k ++ s ∧ is_varint k key ∧ num = number key ∧ key mod 8 = 1 ∧ len s = 8.
Proof. intros H. inversion H; subst. by eexists _, _. Qed.

(** ** What is decoded is what the bytes mean *)
Lemma fits_sub a b c : fits ((a ++ b) ++ c) → fits b.
Proof. unfold fits. rewrite !len_app. pose proof (len_nonneg a). pose proof (len_nonneg c). lia. Qed.

Ltac known H d pre k l1 Hd1 :=
  match type of H with
  | context [rbind (read_varint d _) _] =>
      destruct (read_varint d (len (pre ++ k))) as [[vv jj]| |] eqn:Evv; cbn [rbind] in H; [|done|done];
      apply (varint_at d (pre ++ k) l1) in Evv as (bb & l2 & Hl1 & Hd2 & Hb & ->); [|done]; subst l1
  | context [rbind (read_len d _) _] =>
      destruct (read_len d (len (pre ++ k))) as [[aa ee]| |] eqn:Evv; cbn [rbind] in H; [|done|done];
      apply (len_at d (pre ++ k) l1) in Evv as (bb & nn & ss & l2 & Hl1 & Hd2 & Hb & Hss & -> & -> & Hsl); [|done|done]; subst l1;
      rewrite ?Hsl in H; cbn [rbind] in H
  | context [rbind (read_unknown d _ _) _] =>
      destruct (read_unknown d (len pre) (len d)) as [[uu jj]| |] eqn:Evv; cbn [rbind] in H; [|done|done]
  end.

Lemma um_sound f :
  (∀ d pre l k u x, d = pre ++ l → fits d → um_value f d (len pre) k u = ROk x → value_is k u l x) ∧
  (∀ d pre l items u x, d = pre ++ l → fits d → um_array f d (len pre) items u = ROk x → array_is items u l x) ∧
  (∀ d pre l fs u x, d = pre ++ l → fits d → um_object f d (len pre) fs u = ROk x → object_is fs u l x) ∧
  (∀ d pre l n key v x, d = pre ++ l → fits d → n ≤ len l → um_entry f d (len pre) (len pre + n) key v = ROk x →
     entry_is n l key v x).
Proof.
  induction f as [|f (IHv & IHa & IHo & IHe)]; [done|]. split_and!.
  - intros d pre l k u x Hd Hf H. cbn [um_value] in H.
    destruct (Z.ltb_spec (len pre) (len d)) as [Hlt|Hge].
    2:{ rewrite Z.gtb_ltb in H. rewrite Hd, len_app in Hge. pose proof (len_nonneg l).
        destruct l as [|c l]; [|rewrite len_cons in Hge; pose proof (len_nonneg l); lia].
        destruct (_ <? _); [done|]. injection H as <-. constructor. }
    destruct (read_head d (len pre)) as [[[num wt] j]| |] eqn:Eh; cbn [rbind] in H; [|done|done].
    pose proof Eh as Eh0. apply (head_at d pre l) in Eh as (kb & key & l1 & Hl & Hd1 & Hk & Hnum & Hwt & -> & H4 & Hpos); [|done].
    destruct (Z.eqb_spec num 1) as [E1|N1].
    { destruct (Z.eqb_spec wt 0) as [W|]; [|done]. cbn [negb] in H. known H d pre kb l1 Hd1.
      apply (IHv d ((pre ++ kb) ++ bb) l2) in H; [|done|done]. subst l. rewrite app_assoc.
      eapply vi_null; [|by rewrite signed32]. rewrite <- E1, Hnum. econstructor; [done|congruence|done]. }
    destruct (Z.eqb_spec num 2) as [E2|N2].
    { destruct (Z.eqb_spec wt 2) as [W|]; [|done]. cbn [negb] in H. known H d pre kb l1 Hd1.
      destruct (um_array f ss 0 [] []) as [a| |] eqn:Ea; cbn [rbind] in H; [|done|done].
      apply (IHa ss [] ss) in Ea; [|done|].
      2:{ unfold fits in *. rewrite Hd2, !len_app in Hf. pose proof (len_nonneg pre). pose proof (len_nonneg kb). pose proof (len_nonneg bb). pose proof (len_nonneg l2). lia. }
      apply (IHv d ((pre ++ kb) ++ bb ++ ss) l2) in H; [|done|done]. subst l.
      replace (kb ++ bb ++ ss ++ l2) with ((kb ++ bb ++ ss) ++ l2) by (by rewrite <- !app_assoc).
      eapply vi_array; [|exact Ea|exact H]. rewrite <- E2, Hnum. eapply f_bytes; [done|congruence|done|done]. }
    destruct (Z.eqb_spec num 3) as [E3|N3].
    { destruct (Z.eqb_spec wt 0) as [W|]; [|done]. cbn [negb] in H. known H d pre kb l1 Hd1.
      apply (IHv d ((pre ++ kb) ++ bb) l2) in H; [|done|done]. subst l. rewrite app_assoc.
      eapply vi_bool; [rewrite <- E3, Hnum; econstructor; [done|congruence|done]|].
      pose proof (is_varint_u64 _ _ Hb) as Hu. unfold isU64 in Hu.
      assert ((vv =? 0)%Z = (s64 vv =? 0)%Z) as ->; [|done].
      destruct (Z.eqb_spec vv 0) as [->|Hne]; [done|]. symmetry. apply Z.eqb_neq.
      destruct (Z.lt_ge_cases vv (2^63)); [rewrite s64_id by lia; done|]. pose proof (s64_wrap vv ltac:(lia)). lia. }
    destruct (Z.eqb_spec num 4) as [E4|N4].
    { destruct (Z.eqb_spec wt 1) as [W|]; [|done]. cbn [negb] in H. rewrite Z.gtb_ltb in H.
      destruct (Z.ltb_spec (len d) (len (pre ++ kb) + 8)) as [|Hfit]; [done|].
      destruct (split_at d (pre ++ kb) l1 (len (pre ++ kb) + 8) Hd1 ltac:(lia)) as (ss & l2 & -> & Hd2 & Hs & Hj).
      assert (slice d (len (pre ++ kb)) (len (pre ++ kb) + 8) = ROk ss) as Hsl.
      { rewrite Hj, Hd2, <- app_assoc. by apply slice_exact. }
      rewrite Hsl in H. cbn [rbind] in H. rewrite Hj in H.
      apply (IHv d ((pre ++ kb) ++ ss) l2) in H; [|done|done]. subst l. rewrite app_assoc.
      eapply vi_float; [|by rewrite base256_le]. rewrite <- E4, Hnum. econstructor; [done|congruence|lia]. }
    destruct (Z.eqb_spec num 5) as [E5|N5].
    { destruct (Z.eqb_spec wt 0) as [W|]; [|done]. cbn [negb] in H. known H d pre kb l1 Hd1.
      apply (IHv d ((pre ++ kb) ++ bb) l2) in H; [|done|done]. subst l. rewrite app_assoc.
      eapply vi_int; [|by rewrite signed64]. rewrite <- E5, Hnum. econstructor; [done|congruence|done]. }
    destruct (Z.eqb_spec num 6) as [E6|N6].
    { destruct (Z.eqb_spec wt 2) as [W|]; [|done]. cbn [negb] in H. known H d pre kb l1 Hd1.
      destruct (um_object f ss 0 [] []) as [a| |] eqn:Ea; cbn [rbind] in H; [|done|done].
      apply (IHo ss [] ss) in Ea; [|done|].
      2:{ unfold fits in *. rewrite Hd2, !len_app in Hf. pose proof (len_nonneg pre). pose proof (len_nonneg kb). pose proof (len_nonneg bb). pose proof (len_nonneg l2). lia. }
      apply (IHv d ((pre ++ kb) ++ bb ++ ss) l2) in H; [|done|done]. subst l.
      replace (kb ++ bb ++ ss ++ l2) with ((kb ++ bb ++ ss) ++ l2) by (by rewrite <- !app_assoc).
      eapply vi_object; [|exact Ea|exact H]. rewrite <- E6, Hnum. eapply f_bytes; [done|congruence|done|done]. }
    destruct (Z.eqb_spec num 7) as [E7|N7].
    { destruct (Z.eqb_spec wt 2) as [W|]; [|done]. cbn [negb] in H. known H d pre kb l1 Hd1.
      apply (IHv d ((pre ++ kb) ++ bb ++ ss) l2) in H; [|done|done]. subst l.
      replace (kb ++ bb ++ ss ++ l2) with ((kb ++ bb ++ ss) ++ l2) by (by rewrite <- !app_assoc).
      eapply vi_string; [|exact H]. rewrite <- E7, Hnum. eapply f_bytes; [done|congruence|done|done]. }
    destruct (Z.eqb_spec num 8) as [E8|N8].
    { destruct (Z.eqb_spec wt 0) as [W|]; [|done]. cbn [negb] in H. known H d pre kb l1 Hd1.
      apply (IHv d ((pre ++ kb) ++ bb) l2) in H; [|done|done]. subst l. rewrite app_assoc.
      eapply vi_time; [|by rewrite signed64]. rewrite <- E8, Hnum. econstructor; [done|congruence|done]. }
    destruct (Z.eqb_spec num 9) as [E9|N9].
    { destruct (Z.eqb_spec wt 0) as [W|]; [|done]. cbn [negb] in H. known H d pre kb l1 Hd1.
      apply (IHv d ((pre ++ kb) ++ bb) l2) in H; [|done|done]. subst l. rewrite app_assoc.
      eapply vi_uint; [|exact H]. rewrite <- E9, Hnum. econstructor; [done|congruence|done]. }
    known H d pre kb l1 Hd1.
    apply (unknown_at d pre l) in Evv as (num' & p & l2 & Hl2 & Hd2 & Hr & -> & _); [|done|done|lia].
    apply (IHv d (pre ++ uu) l2) in H; [|done|done]. rewrite Hl2. eapply vi_other; [exact Hr| |exact H].
    apply field_key in Hr as (k' & key' & rest & -> & Hk' & Hn' & H4').
    assert (d = (pre ++ k') ++ rest ++ l2) as Hd3 by (asc Hd2).
    rewrite (head_there d pre k' key' (rest ++ l2)) in Eh0; [|done|done|done|].
    2:{ destruct (Z.lt_ge_cases 0 (number key')); [done|]. exfalso. unfold read_head in Eh0.
        rewrite (varint_there d pre k' (rest ++ l2) key') in Eh0 by done. cbn [rbind] in Eh0. rewrite land7, <- number_s32 in Eh0.
        rewrite (proj2 (Z.eqb_neq _ _)) in Eh0 by done. rewrite (proj2 (Z.leb_le _ _)) in Eh0 by lia. done. }
    injection Eh0 as Hx _ _. lia.
  - intros d pre l items u x Hd Hf H. cbn [um_array] in H.
    destruct (Z.ltb_spec (len pre) (len d)) as [Hlt|Hge].
    2:{ rewrite Z.gtb_ltb in H. rewrite Hd, len_app in Hge. pose proof (len_nonneg l).
        destruct l as [|c l]; [|rewrite len_cons in Hge; pose proof (len_nonneg l); lia].
        destruct (_ <? _); [done|]. injection H as <-. constructor. }
    destruct (read_head d (len pre)) as [[[num wt] j]| |] eqn:Eh; cbn [rbind] in H; [|done|done].
    pose proof Eh as Eh0. apply (head_at d pre l) in Eh as (kb & key & l1 & Hl & Hd1 & Hk & Hnum & Hwt & -> & H4 & Hpos); [|done].
    destruct (Z.eqb_spec num 1) as [E1|N1].
    { destruct (Z.eqb_spec wt 2) as [W|]; [|done]. cbn [negb] in H. known H d pre kb l1 Hd1.
      destruct (um_value f ss 0 KNil []) as [a| |] eqn:Ea; cbn [rbind] in H; [|done|done].
      apply (IHv ss [] ss) in Ea; [|done|].
      2:{ unfold fits in *. rewrite Hd2, !len_app in Hf. pose proof (len_nonneg pre). pose proof (len_nonneg kb). pose proof (len_nonneg bb). pose proof (len_nonneg l2). lia. }
      apply (IHa d ((pre ++ kb) ++ bb ++ ss) l2) in H; [|done|done]. subst l.
      replace (kb ++ bb ++ ss ++ l2) with ((kb ++ bb ++ ss) ++ l2) by (by rewrite <- !app_assoc).
      eapply ai_item; [|exact Ea|exact H]. rewrite <- E1, Hnum. eapply f_bytes; [done|congruence|done|done]. }
    known H d pre kb l1 Hd1.
    apply (unknown_at d pre l) in Evv as (num' & p & l2 & Hl2 & Hd2 & Hr & -> & _); [|done|done|lia].
    apply (IHa d (pre ++ uu) l2) in H; [|done|done]. rewrite Hl2. eapply ai_other; [exact Hr| |exact H].
    apply field_key in Hr as (k' & key' & rest & -> & Hk' & Hn' & H4').
    assert (d = (pre ++ k') ++ rest ++ l2) as Hd3 by (asc Hd2).
    unfold read_head in Eh0.
    rewrite (varint_there d pre k' (rest ++ l2) key') in Eh0 by done. cbn [rbind] in Eh0. rewrite land7, <- number_s32 in Eh0.
    destruct (_ =? 4)%Z; [done|]. destruct (_ <=? 0)%Z; [done|]. injection Eh0 as Hx _ _. lia.
  - intros d pre l fs u x Hd Hf H. cbn [um_object] in H.
    destruct (Z.ltb_spec (len pre) (len d)) as [Hlt|Hge].
    2:{ rewrite Z.gtb_ltb in H. rewrite Hd, len_app in Hge. pose proof (len_nonneg l).
        destruct l as [|c l]; [|rewrite len_cons in Hge; pose proof (len_nonneg l); lia].
        destruct (_ <? _); [done|]. injection H as <-. constructor. }
    destruct (read_head d (len pre)) as [[[num wt] j]| |] eqn:Eh; cbn [rbind] in H; [|done|done].
    pose proof Eh as Eh0. apply (head_at d pre l) in Eh as (kb & key & l1 & Hl & Hd1 & Hk & Hnum & Hwt & -> & H4 & Hpos); [|done].
    destruct (Z.eqb_spec num 1) as [E1|N1].
    { destruct (Z.eqb_spec wt 2) as [W|]; [|done]. cbn [negb] in H. known H d pre kb l1 Hd1.
      destruct (um_entry f d (len ((pre ++ kb) ++ bb)) (len ((pre ++ kb) ++ bb ++ ss)) "" None) as [[key' v']| |] eqn:Ea; cbn [rbind] in H; [|done|done].
      assert (len ((pre ++ kb) ++ bb ++ ss) = len ((pre ++ kb) ++ bb) + len ss) as Hlen by (rewrite !len_app; lia).
      rewrite Hlen in Ea. apply (IHe d ((pre ++ kb) ++ bb) (ss ++ l2)) in Ea; [|asc Hd2|done|rewrite len_app; pose proof (len_nonneg l2); lia].
      apply (IHo d ((pre ++ kb) ++ bb ++ ss) l2) in H; [|done|done]. subst l.
      replace (kb ++ bb ++ ss ++ l2) with ((kb ++ bb ++ ss) ++ l2) by (by rewrite <- !app_assoc).
      eapply oi_entry; [|exact Ea|exact H]. rewrite <- E1, Hnum. eapply f_bytes; [done|congruence|done|done]. }
    known H d pre kb l1 Hd1.
    apply (unknown_at d pre l) in Evv as (num' & p & l2 & Hl2 & Hd2 & Hr & -> & _); [|done|done|lia].
    apply (IHo d (pre ++ uu) l2) in H; [|done|done]. rewrite Hl2. eapply oi_other; [exact Hr| |exact H].
    apply field_key in Hr as (k' & key' & rest & -> & Hk' & Hn' & H4').
    assert (d = (pre ++ k') ++ rest ++ l2) as Hd3 by (asc Hd2).
    unfold read_head in Eh0.
    rewrite (varint_there d pre k' (rest ++ l2) key') in Eh0 by done. cbn [rbind] in Eh0. rewrite land7, <- number_s32 in Eh0.
    destruct (_ =? 4)%Z; [done|]. destruct (_ <=? 0)%Z; [done|]. injection Eh0 as Hx _ _. lia.
  - intros d pre l n key v x Hd Hf Hn H. cbn [um_entry] in H.
    destruct (Z.ltb_spec (len pre) (len pre + n)) as [Hlt|Hge].
    2:{ injection H as <-. constructor. lia. }
    destruct (read_varint d (len pre)) as [[wire j]| |] eqn:Eh; cbn [rbind] in H; [|done|done].
    pose proof Eh as Eh0. apply (varint_at d pre l) in Eh as (kb & l1 & Hl & Hd1 & Hk & ->); [|done].
    rewrite <- number_s32 in H.
    destruct (Z.eqb_spec (number wire) 1) as [E1|N1].
    { known H d pre kb l1 Hd1.
      replace (len pre + n) with (len ((pre ++ kb) ++ bb ++ ss) + (n - len (kb ++ bb ++ ss))) in H by (rewrite !len_app; lia).
      apply (IHe d ((pre ++ kb) ++ bb ++ ss) l2) in H; [|done|done|subst l; rewrite !len_app in *; lia].
      subst l. eapply ei_key; [lia|exact Hk|done|exact Hb|done|exact H]. }
    destruct (Z.eqb_spec (number wire) 2) as [E2|N2].
    { known H d pre kb l1 Hd1.
      destruct (um_value f ss 0 KNil []) as [a| |] eqn:Ea; cbn [rbind] in H; [|done|done].
      apply (IHv ss [] ss) in Ea; [|done|].
      2:{ unfold fits in *. rewrite Hd2, !len_app in Hf. pose proof (len_nonneg pre). pose proof (len_nonneg kb). pose proof (len_nonneg bb). pose proof (len_nonneg l2). lia. }
      replace (len pre + n) with (len ((pre ++ kb) ++ bb ++ ss) + (n - len (kb ++ bb ++ ss))) in H by (rewrite !len_app; lia).
      apply (IHe d ((pre ++ kb) ++ bb ++ ss) l2) in H; [|done|done|subst l; rewrite !len_app in *; lia].
      subst l. eapply ei_value; [lia|exact Hk|done|exact Hb|done|exact Ea|exact H]. }
    destruct (read_unknown d (len pre) (len pre + n)) as [[uu jj]| |] eqn:Evv; cbn [rbind] in H; [|done|done].
    apply (unknown_at d pre l) in Evv as (num' & p & l2 & Hl2 & Hd2 & Hr & -> & Hle); [|done|done|rewrite Hd, len_app; lia].
    replace (len pre + n) with (len (pre ++ uu) + (n - len uu)) in H by (rewrite !len_app; lia).
    apply (IHe d (pre ++ uu) l2) in H; [|done|done|subst l; rewrite Hl2 in Hn; rewrite !len_app in *; lia].
    rewrite Hl2. rewrite len_app in Hle.
    assert (num' = number wire) as Hnw.
    { apply field_key in Hr as (k' & key' & rest & -> & Hk' & Hn' & H4').
      assert (d = (pre ++ k') ++ rest ++ l2) as Hd3 by (asc Hd2).
      rewrite (varint_there d pre k' (rest ++ l2) key') in Eh0 by done. congruence. }
    eapply ei_other; [lia|exact Hr|congruence|congruence|lia|exact H].
Qed.

(** ** What the bytes mean is what is decoded *)
Ltac lens :=
  repeat match goal with
  | x : list ascii |- _ =>
      lazymatch goal with H : 0 ≤ len x |- _ => fail | _ => pose proof (len_nonneg x) end
  | x : bytes |- _ =>
      lazymatch goal with H : 0 ≤ len x |- _ => fail | _ => pose proof (len_nonneg x) end
  end;
  repeat match goal with
  | H : is_varint ?b _ |- _ => lazymatch goal with H' : 1 ≤ len b |- _ => fail | _ => pose proof (is_varint_len _ _ H) end
  end.
Lemma len_lt_nat (b : bytes) f : (length b < f)%nat ↔ len b < Z.of_nat f.
Proof. unfold len. lia. Qed.
(** Fuel, [fits] and loop conditions. *)
Ltac sizes :=
  unfold fits in *; rewrite ?len_lt_nat, ?Nat2Z.inj_succ in *;
  repeat match goal with
  | H : ?d = _ ++ _ |- context [len ?d] => rewrite H
  | H : ?d = _ ++ _, H' : context [len ?d] |- _ => rewrite H in H'
  end;
  rewrite ?len_app in *; lens; rewrite ?len_nil in *; lia.

Definition Pv (k : pkind pval) (u b : bytes) (x : pval) : Prop := ∀ d pre f, d = pre ++ b → fits d → (length b < f)%nat →
  um_value f d (len pre) k u = ROk x.
Definition Pa (items : list (option pval)) (u b : bytes) (x : parr pval) : Prop := ∀ d pre f, d = pre ++ b → fits d → (length b < f)%nat →
  um_array f d (len pre) items u = ROk x.
Definition Po (fs : gomap (option pval)) (u b : bytes) (x : pobj pval) : Prop := ∀ d pre f, d = pre ++ b → fits d → (length b < f)%nat →
  um_object f d (len pre) fs u = ROk x.
Definition Pe (n : Z) (b : bytes) (key : string) (v : option pval) (r : string * option pval) : Prop :=
  ∀ d pre f, d = pre ++ b → fits d → (length b < f)%nat →
  um_entry f d (len pre) (len pre + n) key v = ROk r.

(** The loop enters, and reads the key. *)
Ltac enter Hf d pre k key rest :=
  match goal with |- context [len ?p <? len d] => rewrite (proj2 (Z.ltb_lt (len p) (len d))) by sizes end;
  rewrite (head_there d pre k key rest) by (done || lia || (match goal with H : d = _ |- _ => rewrite H; rewrite <- ?app_assoc; reflexivity end));
  cbn [rbind].

Lemma um_complete :
  (∀ k u b x, value_is k u b x → Pv k u b x) ∧ (∀ items u b x, array_is items u b x → Pa items u b x) ∧
  (∀ fs u b x, object_is fs u b x → Po fs u b x) ∧ (∀ n b key v r, entry_is n b key v r → Pe n b key v r).
Proof.
  apply means_mutind.
  - intros k u d pre f Hd Hf Hl. destruct f as [|f]; [simpl in Hl; lia|]. cbn [um_value]. rewrite Hd, app_nil_r, Z.gtb_ltb, Z.ltb_irrefl. done.
  - intros k u raw v b x Hr _ IH d pre f Hd Hf Hl. destruct f as [|f]; [lia|]. cbn [um_value].
    apply field_varint in Hr as (kb & key & bb & -> & Hk & Hn & Hw & Hb).
    enter Hf d pre kb key (bb ++ b). rewrite <- Hn, Hw. cbn [Z.eqb Pos.eqb negb].
    rewrite (varint_there d (pre ++ kb) bb b v) by (done || asc Hd). cbn [rbind]. rewrite <- signed32.
    apply IH; [asc Hd|done|sizes].
  - intros k u raw s a b x Hr _ IH1 _ IH d pre f Hd Hf Hl. destruct f as [|f]; [lia|]. cbn [um_value].
    apply field_bytes in Hr as (kb & key & bb & nn & -> & Hk & Hn & Hw & Hb & Hs).
    enter Hf d pre kb key (bb ++ s ++ b). rewrite <- Hn, Hw. cbn [Z.eqb Pos.eqb negb].
    destruct (len_there d (pre ++ kb) bb nn s b) as [-> Hsl]; [asc Hd|done|done|done|]. cbn [rbind]. rewrite Hsl. cbn [rbind].
    assert (fits s) as Hfs by sizes. assert (length s < f)%nat as Hls by sizes. pose proof (IH1 s [] f eq_refl Hfs Hls) as Hsub. rewrite len_nil in Hsub. rewrite Hsub. cbn [rbind].
    apply IH; [asc Hd|done|sizes].
  - intros k u raw v b x Hr _ IH d pre f Hd Hf Hl. destruct f as [|f]; [lia|]. cbn [um_value].
    apply field_varint in Hr as (kb & key & bb & -> & Hk & Hn & Hw & Hb).
    enter Hf d pre kb key (bb ++ b). rewrite <- Hn, Hw. cbn [Z.eqb Pos.eqb negb].
    rewrite (varint_there d (pre ++ kb) bb b v) by (done || asc Hd). cbn [rbind]. assert (negb (s64 v =? 0)%Z = negb (v =? 0)%Z) as ->.
    { pose proof (is_varint_u64 _ _ Hb) as Hu. unfold isU64 in Hu. f_equal.
      destruct (Z.eqb_spec v 0) as [->|Hne]; [done|]. apply Z.eqb_neq.
      destruct (Z.lt_ge_cases v (2^63)); [rewrite s64_id by lia; done|]. pose proof (s64_wrap v ltac:(lia)). lia. }
    apply IH; [asc Hd|done|sizes].
  - intros k u raw s b x Hr _ IH d pre f Hd Hf Hl. destruct f as [|f]; [lia|]. cbn [um_value].
    apply field_fixed64 in Hr as (kb & key & -> & Hk & Hn & Hw & Hs).
    enter Hf d pre kb key (s ++ b). rewrite <- Hn, Hw. cbn [Z.eqb Pos.eqb negb]. rewrite Z.gtb_ltb.
    rewrite (proj2 (Z.ltb_ge _ _)) by sizes.
    assert (len (pre ++ kb) + 8 = len ((pre ++ kb) ++ s)) as Hj by (rewrite (len_app (pre ++ kb)); lia). rewrite Hj.
    assert (slice d (len (pre ++ kb)) (len ((pre ++ kb) ++ s)) = ROk s) as ->.
    { rewrite Hd. replace (pre ++ (kb ++ s) ++ b) with ((pre ++ kb) ++ s ++ b) by (by rewrite <- !app_assoc). by apply slice_exact. }
    cbn [rbind]. rewrite <- base256_le. apply IH; [asc Hd|done|sizes].
  - intros k u raw v b x Hr _ IH d pre f Hd Hf Hl. destruct f as [|f]; [lia|]. cbn [um_value].
    apply field_varint in Hr as (kb & key & bb & -> & Hk & Hn & Hw & Hb).
    enter Hf d pre kb key (bb ++ b). rewrite <- Hn, Hw. cbn [Z.eqb Pos.eqb negb].
    rewrite (varint_there d (pre ++ kb) bb b v) by (done || asc Hd). cbn [rbind]. rewrite <- signed64.
    apply IH; [asc Hd|done|sizes].
  - intros k u raw s a b x Hr _ IH1 _ IH d pre f Hd Hf Hl. destruct f as [|f]; [lia|]. cbn [um_value].
    apply field_bytes in Hr as (kb & key & bb & nn & -> & Hk & Hn & Hw & Hb & Hs).
    enter Hf d pre kb key (bb ++ s ++ b). rewrite <- Hn, Hw. cbn [Z.eqb Pos.eqb negb].
    destruct (len_there d (pre ++ kb) bb nn s b) as [-> Hsl]; [asc Hd|done|done|done|]. cbn [rbind]. rewrite Hsl. cbn [rbind].
    assert (fits s) as Hfs by sizes. assert (length s < f)%nat as Hls by sizes. pose proof (IH1 s [] f eq_refl Hfs Hls) as Hsub. rewrite len_nil in Hsub. rewrite Hsub. cbn [rbind].
    apply IH; [asc Hd|done|sizes].
  - intros k u raw s b x Hr _ IH d pre f Hd Hf Hl. destruct f as [|f]; [lia|]. cbn [um_value].
    apply field_bytes in Hr as (kb & key & bb & nn & -> & Hk & Hn & Hw & Hb & Hs).
    enter Hf d pre kb key (bb ++ s ++ b). rewrite <- Hn, Hw. cbn [Z.eqb Pos.eqb negb].
    destruct (len_there d (pre ++ kb) bb nn s b) as [-> Hsl]; [asc Hd|done|done|done|]. cbn [rbind]. rewrite Hsl. cbn [rbind].
    apply IH; [asc Hd|done|sizes].
  - intros k u raw v b x Hr _ IH d pre f Hd Hf Hl. destruct f as [|f]; [lia|]. cbn [um_value].
    apply field_varint in Hr as (kb & key & bb & -> & Hk & Hn & Hw & Hb).
    enter Hf d pre kb key (bb ++ b). rewrite <- Hn, Hw. cbn [Z.eqb Pos.eqb negb].
    rewrite (varint_there d (pre ++ kb) bb b v) by (done || asc Hd). cbn [rbind]. rewrite <- signed64.
    apply IH; [asc Hd|done|sizes].
  - intros k u raw v b x Hr _ IH d pre f Hd Hf Hl. destruct f as [|f]; [lia|]. cbn [um_value].
    apply field_varint in Hr as (kb & key & bb & -> & Hk & Hn & Hw & Hb).
    enter Hf d pre kb key (bb ++ b). rewrite <- Hn, Hw. cbn [Z.eqb Pos.eqb negb].
    rewrite (varint_there d (pre ++ kb) bb b v) by (done || asc Hd). cbn [rbind]. 
    apply IH; [asc Hd|done|sizes].
  - intros k u raw num p b x Hr Hnum _ IH d pre f Hd Hf Hl. destruct f as [|f]; [lia|]. cbn [um_value].
    pose proof (field_key _ _ _ Hr) as (kb & key & rest & Hraw & Hk & Hn & H4). pose proof (is_varint_len _ _ Hk) as Hkl.
    assert (1 ≤ len raw) as Hrl by (rewrite Hraw, len_app; pose proof (len_nonneg rest); lia). clear Hkl.
    rewrite (proj2 (Z.ltb_lt (len pre) (len d))) by (clear Hraw; sizes).
    rewrite (head_there d pre kb key (rest ++ b)) by (done || lia || (rewrite Hd, Hraw; rewrite <- ?app_assoc; reflexivity)). clear Hraw. cbn [rbind].
    rewrite <- Hn. repeat rewrite (proj2 (Z.eqb_neq num _)) by lia.
    rewrite (unknown_there d pre raw b (len d) num p) by (done || asc Hd || sizes). cbn [rbind].
    apply IH; [asc Hd|done|sizes].
  - intros items u d pre f Hd Hf Hl. destruct f as [|f]; [simpl in Hl; lia|]. cbn [um_array]. rewrite Hd, app_nil_r, Z.gtb_ltb, Z.ltb_irrefl. done.
  - intros items u raw s a b x Hr _ IH1 _ IH d pre f Hd Hf Hl. destruct f as [|f]; [lia|]. cbn [um_array].
    apply field_bytes in Hr as (kb & key & bb & nn & -> & Hk & Hn & Hw & Hb & Hs).
    enter Hf d pre kb key (bb ++ s ++ b). rewrite <- Hn, Hw. cbn [Z.eqb Pos.eqb negb].
    destruct (len_there d (pre ++ kb) bb nn s b) as [-> Hsl]; [asc Hd|done|done|done|]. cbn [rbind]. rewrite Hsl. cbn [rbind].
    assert (fits s) as Hfs by sizes. assert (length s < f)%nat as Hls by sizes. pose proof (IH1 s [] f eq_refl Hfs Hls) as Hsub. rewrite len_nil in Hsub. rewrite Hsub. cbn [rbind].
    apply IH; [asc Hd|done|sizes].
  - intros items u raw num p b x Hr Hnum _ IH d pre f Hd Hf Hl. destruct f as [|f]; [lia|]. cbn [um_array].
    pose proof (field_key _ _ _ Hr) as (kb & key & rest & Hraw & Hk & Hn & H4). pose proof (is_varint_len _ _ Hk) as Hkl.
    assert (1 ≤ len raw) as Hrl by (rewrite Hraw, len_app; pose proof (len_nonneg rest); lia). clear Hkl.
    rewrite (proj2 (Z.ltb_lt (len pre) (len d))) by (clear Hraw; sizes).
    rewrite (head_there d pre kb key (rest ++ b)) by (done || lia || (rewrite Hd, Hraw; rewrite <- ?app_assoc; reflexivity)). clear Hraw. cbn [rbind].
    rewrite <- Hn. repeat rewrite (proj2 (Z.eqb_neq num _)) by lia.
    rewrite (unknown_there d pre raw b (len d) num p) by (done || asc Hd || sizes). cbn [rbind].
    apply IH; [asc Hd|done|sizes].
  - intros fs u d pre f Hd Hf Hl. destruct f as [|f]; [simpl in Hl; lia|]. cbn [um_object]. rewrite Hd, app_nil_r, Z.gtb_ltb, Z.ltb_irrefl. done.
  - intros fs u raw s mk v b x Hr _ IH1 _ IH d pre f Hd Hf Hl. destruct f as [|f]; [lia|]. cbn [um_object].
    apply field_bytes in Hr as (kb & key & bb & nn & -> & Hk & Hn & Hw & Hb & Hs).
    enter Hf d pre kb key (bb ++ s ++ b). rewrite <- Hn, Hw. cbn [Z.eqb Pos.eqb negb].
    destruct (len_there d (pre ++ kb) bb nn s b) as [-> Hsl]; [asc Hd|done|done|done|]. cbn [rbind].
    assert (len ((pre ++ kb) ++ bb ++ s) = len ((pre ++ kb) ++ bb) + len s) as Hlen by (rewrite !len_app; lia).
    rewrite Hlen. rewrite (IH1 d ((pre ++ kb) ++ bb) f) by (done || asc Hd || sizes). cbn [rbind]. rewrite <- Hlen.
    apply IH; [asc Hd|done|sizes].
  - intros fs u raw num p b x Hr Hnum _ IH d pre f Hd Hf Hl. destruct f as [|f]; [lia|]. cbn [um_object].
    pose proof (field_key _ _ _ Hr) as (kb & key & rest & Hraw & Hk & Hn & H4). pose proof (is_varint_len _ _ Hk) as Hkl.
    assert (1 ≤ len raw) as Hrl by (rewrite Hraw, len_app; pose proof (len_nonneg rest); lia). clear Hkl.
    rewrite (proj2 (Z.ltb_lt (len pre) (len d))) by (clear Hraw; sizes).
    rewrite (head_there d pre kb key (rest ++ b)) by (done || lia || (rewrite Hd, Hraw; rewrite <- ?app_assoc; reflexivity)). clear Hraw. cbn [rbind].
    rewrite <- Hn. repeat rewrite (proj2 (Z.eqb_neq num _)) by lia.
    rewrite (unknown_there d pre raw b (len d) num p) by (done || asc Hd || sizes). cbn [rbind].
    apply IH; [asc Hd|done|sizes].
  - intros n b key v Hn d pre f Hd Hf Hl. destruct f as [|f]; [lia|]. cbn [um_entry].
    by rewrite (proj2 (Z.ltb_ge _ _)) by lia.
  - intros n kb kv bb m s b key v r Hpos Hk Hn Hb Hs _ IH d pre f Hd Hf Hl. destruct f as [|f]; [lia|]. cbn [um_entry].
    rewrite (proj2 (Z.ltb_lt _ _)) by lia. rewrite (varint_there d pre kb (bb ++ s ++ b) kv) by (done || asc Hd). cbn [rbind].
    rewrite <- number_s32, Hn. cbn [Z.eqb Pos.eqb].
    destruct (len_there d (pre ++ kb) bb m s b) as [-> Hsl]; [asc Hd|done|done|done|]. cbn [rbind]. rewrite Hsl. cbn [rbind].
    replace (len pre + n) with (len ((pre ++ kb) ++ bb ++ s) + (n - len (kb ++ bb ++ s))) by (rewrite !len_app; lia).
    apply IH; [asc Hd|done|sizes].
  - intros n kb kv bb m s x b key v r Hpos Hk Hn Hb Hs _ IH1 _ IH d pre f Hd Hf Hl. destruct f as [|f]; [lia|]. cbn [um_entry].
    rewrite (proj2 (Z.ltb_lt _ _)) by lia. rewrite (varint_there d pre kb (bb ++ s ++ b) kv) by (done || asc Hd). cbn [rbind].
    rewrite <- number_s32, Hn. cbn [Z.eqb Pos.eqb].
    destruct (len_there d (pre ++ kb) bb m s b) as [-> Hsl]; [asc Hd|done|done|done|]. cbn [rbind]. rewrite Hsl. cbn [rbind].
    assert (fits s) as Hfs by sizes. assert (length s < f)%nat as Hls by sizes. pose proof (IH1 s [] f eq_refl Hfs Hls) as Hsub. rewrite len_nil in Hsub. rewrite Hsub. cbn [rbind].
    replace (len pre + n) with (len ((pre ++ kb) ++ bb ++ s) + (n - len (kb ++ bb ++ s))) by (rewrite !len_app; lia).
    apply IH; [asc Hd|done|sizes].
  - intros n raw num p b key v r Hpos Hr H1 H2 Hle _ IH d pre f Hd Hf Hl. destruct f as [|f]; [lia|]. cbn [um_entry].
    pose proof (field_key _ _ _ Hr) as (kb & kv & rest & Hraw & Hk & Hn & H4). pose proof (is_varint_len _ _ Hk) as Hkl.
    assert (1 ≤ len raw) as Hrl by (rewrite Hraw, len_app; pose proof (len_nonneg rest); lia). clear Hkl.
    rewrite (proj2 (Z.ltb_lt _ _)) by lia.
    rewrite (varint_there d pre kb (rest ++ b) kv) by (done || (rewrite Hd, Hraw; rewrite <- ?app_assoc; reflexivity)). clear Hraw. cbn [rbind].
    rewrite <- number_s32, <- Hn. rewrite (proj2 (Z.eqb_neq num 1)) by done. rewrite (proj2 (Z.eqb_neq num 2)) by done.
    rewrite (unknown_there d pre raw b (len pre + n) num p) by (done || asc Hd || (rewrite len_app; lia)). cbn [rbind].
    replace (len pre + n) with (len (pre ++ raw) + (n - len raw)) by (rewrite !len_app; lia).
    apply IH; [asc Hd|done|sizes].
Qed.
