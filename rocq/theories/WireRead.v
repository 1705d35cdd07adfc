(** * Reading never panics and always makes progress *)
From Verif Require Export WireMarshal.
Local Open Scope Z_scope.

Definition fits (d : bytes) : Prop := len d < 2 ^ 63.

Lemma s64_id z : - 2 ^ 63 ≤ z < 2 ^ 63 → s64 z = z.
Proof. intros H. unfold s64. rewrite Z.mod_small by lia. lia. Qed.
Lemma s64_range z : - 2 ^ 63 ≤ s64 z < 2 ^ 63.
Proof. unfold s64. pose proof (Z.mod_pos_bound (z + 2^63) (2^64) ltac:(lia)). lia. Qed.
Lemma s64_wrap z : 2 ^ 63 ≤ z < 2 ^ 64 → s64 z < 0.
Proof.
  intros H. unfold s64.
  replace (z + 2^63) with ((z - 2^63) + 1 * 2^64) by lia.
  rewrite Z.mod_add by lia. rewrite Z.mod_small by lia. lia.
Qed.
(** adding two non-negative ints: the exact sum, or a negative number *)
Lemma s64_add a b : 0 ≤ a < 2 ^ 63 → 0 ≤ b < 2 ^ 63 → s64 (a + b) < 0 ∨ s64 (a + b) = a + b.
Proof.
  intros Ha Hb. destruct (Z.lt_ge_cases (a + b) (2^63)).
  - right. apply s64_id. lia.
  - left. apply s64_wrap. lia.
Qed.
Lemma s64_u64 z : - 2 ^ 63 ≤ z < 2 ^ 63 → s64 (u64 z) = z.
Proof.
  intros H. unfold s64, u64. rewrite Zplus_mod_idemp_l. apply s64_id in H. unfold s64 in H. exact H.
Qed.
Lemma s32_range z : - 2 ^ 31 ≤ s32 z < 2 ^ 31.
Proof. unfold s32. pose proof (Z.mod_pos_bound (z + 2^31) (2^32) ltac:(lia)). lia. Qed.
Lemma s32_id z : - 2 ^ 31 ≤ z < 2 ^ 31 → s32 z = z.
Proof. intros H. unfold s32. rewrite Z.mod_small by lia. lia. Qed.
Lemma s32_u64 z : - 2 ^ 31 ≤ z < 2 ^ 31 → s32 (u64 z) = z.
Proof.
  intros H. unfold u64.
  assert (s32 (z mod 2^64) = s32 z) as ->; [|by apply s32_id].
  unfold s32. f_equal. rewrite (Z.mod_eq z (2^64)) by lia.
  replace (z - 2^64 * (z / 2^64) + 2^31) with (z + 2^31 + (- (2^32) * (z / 2^64)) * 2^32) by (change (2^64) with (2^32 * 2^32); lia).
  by rewrite Z.mod_add by lia.
Qed.

(** ** Varints *)
Lemma isU64_lor a b : isU64 a → isU64 b → isU64 (Z.lor a b).
Proof.
  intros [Ha1 Ha2] [Hb1 Hb2]. split; [apply Z.lor_nonneg; lia|].
  destruct (Z.eq_dec (Z.lor a b) 0) as [->|]; [lia|].
  apply Z.log2_lt_pow2; [pose proof (proj2 (Z.lor_nonneg a b)); lia|].
  rewrite Z.log2_lor by lia. apply Z.max_lub_lt.
  - destruct (Z.eq_dec a 0) as [->|]; [simpl; lia|]. apply Z.log2_lt_pow2; lia.
  - destruct (Z.eq_dec b 0) as [->|]; [simpl; lia|]. apply Z.log2_lt_pow2; lia.
Qed.

Lemma byte_at_ok d i : 0 ≤ i < len d → ∃ b, byte_at d i = ROk b.
Proof.
  intros H. unfold byte_at. rewrite (proj2 (Z.leb_le _ _)) by lia.
  destruct (nth_error d (Z.to_nat i)) eqn:E; [eauto|].
  apply nth_error_None in E. unfold len in H. lia.
Qed.

Lemma varint_from_safe f d i shift acc :
  0 ≤ i → 0 ≤ shift → isU64 acc → (0 < f)%nat → 64 + 7 ≤ shift + 7 * Z.of_nat f →
  match varint_from f d i shift acc with
  | ROk (v, j) => i < j ≤ len d ∧ isU64 v
  | RErr _ => True
  | RPanic => False
  end.
Proof.
  revert i shift acc. induction f as [|f IH]; intros i shift acc Hi Hs Ha Hp Hf; [lia|].
  cbn [varint_from]. rewrite !Z.geb_leb.
  destruct (Z.leb_spec 64 shift); [done|].
  destruct (Z.leb_spec (len d) i); [done|].
  destruct (byte_at_ok d i) as [b ->]; [lia|]. cbn [rbind].
  assert (isU64 (Z.lor acc (u64 (Z.shiftl (Z.land (bval b) 127) shift)))) as Hacc.
  { apply isU64_lor; [done|apply u64_is]. }
  destruct (bval b <? 128).
  - split; [lia|done].
  - assert (0 < f)%nat by lia.
    pose proof (IH (i + 1) (shift + 7) _ ltac:(lia) ltac:(lia) Hacc ltac:(lia) ltac:(lia)) as HI.
    destruct varint_from as [[v j]| |]; try done. destruct HI as [? ?]. split; [lia|done].
Qed.

Lemma read_varint_safe d i :
  0 ≤ i →
  match read_varint d i with
  | ROk (v, j) => i < j ≤ len d ∧ isU64 v
  | RErr _ => True
  | RPanic => False
  end.
Proof. intros Hi. apply varint_from_safe; try lia. split; lia. Qed.

Lemma read_len_safe d i :
  fits d → 0 ≤ i →
  match read_len d i with
  | ROk (a, b) => i < a ≤ b ∧ b ≤ len d
  | RErr _ => True
  | RPanic => False
  end.
Proof.
  intros Hd Hi. unfold read_len, fits in *. pose proof (read_varint_safe d i Hi) as H.
  destruct (read_varint d i) as [[v j]| |]; simpl; try done.
  destruct H as [Hj Hv]. pose proof (s64_range v).
  destruct (Z.ltb_spec (s64 v) 0); [done|].
  destruct (Z.ltb_spec (s64 (j + s64 v)) 0); [done|].
  rewrite Z.gtb_ltb. destruct (Z.ltb_spec (len d) (s64 (j + s64 v))); [done|].
  destruct (s64_add j (s64 v)) as [?|He]; [lia|lia|lia|]. rewrite He in *. lia.
Qed.

Lemma slice_safe d a b : 0 ≤ a ≤ b → b ≤ len d → ∃ s, slice d a b = ROk s ∧ len s = b - a ∧
  d = take (Z.to_nat a) d ++ s ++ drop (Z.to_nat b) d.
Proof.
  intros H1 H2. unfold slice. 
  rewrite (proj2 (Z.leb_le _ _)), (proj2 (Z.leb_le _ _)), (proj2 (Z.leb_le _ _)) by lia. cbn [andb].
  eexists. split; [done|]. split.
  - unfold len in *. rewrite take_length, drop_length. lia.
  - rewrite <- (take_drop (Z.to_nat a) d) at 1. f_equal.
    rewrite <- (take_drop (Z.to_nat b - Z.to_nat a) (drop (Z.to_nat a) d)) at 1. f_equal.
    rewrite drop_drop. f_equal. lia.
Qed.

Lemma skip_loop_safe f d i depth :
  fits d → 0 ≤ i → len d - i < Z.of_nat f → (0 < f)%nat →
  match skip_loop f d i depth with
  | ROk n => i < n < 2 ^ 63
  | RErr _ => True
  | RPanic => False
  end.
Proof.
  intros Hd. revert i depth. induction f as [|f IH]; intros i depth Hi Hf Hp; [lia|].
  cbn [skip_loop]. destruct (Z.ltb_spec i (len d)) as [Hil|]; [|done].
  pose proof (read_varint_safe d i Hi) as Hr.
  destruct (read_varint d i) as [[wire j]| |]; cbn [rbind]; try done.
  destruct Hr as [Hj Hw].
  assert (∀ j' depth', j ≤ j' < 2 ^ 63 ∨ j' < 0 →
    match (if j' <? 0 then RErr EInvalidLength
           else match depth' with O => ROk j' | _ => skip_loop f d j' depth' end) with
    | ROk n => i < n < 2 ^ 63 | RErr _ => True | RPanic => False end) as Hc.
  { intros j' depth' Hj'. destruct (Z.ltb_spec j' 0); [done|].
    destruct depth' as [|depth']; [lia|].
    destruct f as [|f']; [lia|].
    pose proof (IH j' (S depth') ltac:(lia) ltac:(lia) ltac:(lia)) as HI.
    destruct skip_loop; try done. lia. }
  unfold fits in Hd.
  assert (∀ k, 0 ≤ k < 2 ^ 63 → j ≤ s64 (j + k) < 2 ^ 63 ∨ s64 (j + k) < 0) as Hk.
  { intros k Hk. pose proof (s64_range (j + k)). destruct (s64_add j k); lia. }
  destruct (Z.land wire 7 =? 0).
  { pose proof (read_varint_safe d j ltac:(lia)) as Hr2.
    destruct (read_varint d j) as [[? j2]| |]; cbn [rbind]; try done.
    apply Hc. lia. }
  destruct (Z.land wire 7 =? 1). { apply Hc, Hk. lia. }
  destruct (Z.land wire 7 =? 2).
  { pose proof (read_varint_safe d j ltac:(lia)) as Hr2.
    destruct (read_varint d j) as [[v j2]| |]; cbn [rbind]; try done.
    pose proof (s64_range v). destruct (Z.ltb_spec (s64 v) 0); [done|].
    apply Hc. pose proof (s64_range (j2 + s64 v)). destruct (s64_add j2 (s64 v)); lia. }
  destruct (Z.land wire 7 =? 3). { apply (Hc j (S depth)). lia. }
  destruct (Z.land wire 7 =? 4). { destruct depth as [|depth]; [done|]. apply Hc. lia. }
  destruct (Z.land wire 7 =? 5). { apply Hc, Hk. lia. }
  done.
Qed.

Lemma skipEvent_safe d :
  fits d → match skipEvent d with ROk n => 0 < n < 2 ^ 63 | RErr _ => True | RPanic => False end.
Proof. intros Hd. apply skip_loop_safe; [done|lia|unfold len; lia|lia]. Qed.

Lemma read_unknown_safe d i limit :
  fits d → 0 ≤ i ≤ len d → limit ≤ len d →
  match read_unknown d i limit with
  | ROk (_, j) => i < j ≤ limit
  | RErr _ => True
  | RPanic => False
  end.
Proof.
  intros Hd Hi Hl. unfold read_unknown.
  destruct (slice_safe d i (len d)) as (rest & -> & Hlen & _); [lia|lia|]. cbn [rbind].
  assert (fits rest) as Hr by (unfold fits in *; lia).
  pose proof (skipEvent_safe rest Hr) as Hs. destruct (skipEvent rest) as [n| |]; cbn [rbind]; try done.
  destruct (Z.ltb_spec n 0); [done|]. destruct (Z.ltb_spec (s64 (i + n)) 0); [done|]. cbn [orb].
  rewrite Z.gtb_ltb. destruct (Z.ltb_spec limit (s64 (i + n))); [done|].
  unfold fits in *. destruct (s64_add i n) as [?|He]; [lia|lia|lia|]. rewrite He in *.
  destruct (slice_safe d i (i + n)) as (u & -> & _ & _); [lia|lia|]. cbn [rbind]. lia.
Qed.

Lemma read_head_safe d i :
  0 ≤ i →
  match read_head d i with
  | ROk (num, wt, j) => i < j ≤ len d ∧ 0 < num
  | RErr _ => True
  | RPanic => False
  end.
Proof.
  intros Hi. unfold read_head. pose proof (read_varint_safe d i Hi) as H.
  destruct (read_varint d i) as [[v j]| |]; cbn [rbind]; try done.
  destruct (_ =? 4); [done|]. destruct (Z.leb_spec (s32 (Z.shiftr v 3)) 0); [done|]. tauto.
Qed.

(** ** Messages *)
Definition never_panics {A} (x : res A) : Prop := x ≠ RPanic.

Ltac safe_step :=
  match goal with
  | |- context [ rbind (read_head ?d ?i) _ ] =>
      let H := fresh "Hh" in
      pose proof (read_head_safe d i ltac:(lia)) as H;
      destruct (read_head d i) as [[[? ?] ?]| |]; cbn [rbind]; [destruct H as [H ?]|done|done]
  | |- context [ rbind (read_varint ?d ?i) _ ] =>
      let H := fresh "Hv" in
      pose proof (read_varint_safe d i ltac:(lia)) as H;
      destruct (read_varint d i) as [[? ?]| |]; cbn [rbind]; [destruct H as [H ?]|done|done]
  | |- context [ rbind (read_len ?d ?i) _ ] =>
      let H := fresh "Hl" in
      pose proof (read_len_safe d i ltac:(assumption) ltac:(lia)) as H;
      destruct (read_len d i) as [[? ?]| |]; cbn [rbind]; [|done|done]
  | |- context [ rbind (read_unknown ?d ?i ?l) _ ] =>
      let H := fresh "Hu" in
      pose proof (read_unknown_safe d i l ltac:(assumption) ltac:(lia) ltac:(lia)) as H;
      destruct (read_unknown d i l) as [[? ?]| |]; cbn [rbind]; [|done|done]
  | |- context [ rbind (slice ?d ?a ?b) _ ] =>
      let s := fresh "s" in let H1 := fresh "Hs" in let H2 := fresh "Hsl" in
      destruct (slice_safe d a b) as (s & H1 & H2 & _); [lia|lia|]; rewrite H1; cbn [rbind];
      assert (fits s) by (unfold fits in *; lia)
  | |- context [ if negb ?b then _ else _ ] => destruct b; cbn [negb]; [|done]
  | |- context [ (?a >? ?b)%Z ] => rewrite (Z.gtb_ltb a b)
  | |- context [ if (?a <? ?b)%Z then _ else _ ] => destruct (Z.ltb_spec a b)
  | |- context [ if (?a =? ?b)%Z then _ else _ ] => destruct (Z.eqb_spec a b)
  end.

Lemma um_safe f :
  (∀ d i k u, fits d → 0 ≤ i ≤ len d → len d - i < Z.of_nat f → never_panics (um_value f d i k u)) ∧
  (∀ d i l u, fits d → 0 ≤ i ≤ len d → len d - i < Z.of_nat f → never_panics (um_array f d i l u)) ∧
  (∀ d i l u, fits d → 0 ≤ i ≤ len d → len d - i < Z.of_nat f → never_panics (um_object f d i l u)) ∧
  (∀ d i p k x, fits d → 0 ≤ i ≤ len d → p ≤ len d → len d - i < Z.of_nat f →
     never_panics (um_entry f d i p k x)).
Proof.
  induction f as [|f (IHv & IHa & IHo & IHe)].
  { split_and!; intros; lia. }
  assert (∀ {A B} (x : res A) (g : A → res B), never_panics x → (∀ a, never_panics (g a)) → never_panics (rbind x g)) as Hb.
  { intros A B [a|e|] g Hx Hg; simpl; [apply Hg|done|done]. }
  split_and!.
  - intros d i k u Hd Hi Hf. cbn [um_value].
    repeat safe_step; try done;
      first [ apply IHv; solve [assumption|lia]
            | apply Hb; [apply IHa; solve [assumption|lia]|intros; apply IHv; solve [assumption|lia]]
            | apply Hb; [apply IHo; solve [assumption|lia]|intros; apply IHv; solve [assumption|lia]] ].
  - intros d i l u Hd Hi Hf. cbn [um_array].
    repeat safe_step; try done;
      first [ apply IHa; solve [assumption|lia]
            | apply Hb; [apply IHv; solve [assumption|lia]|intros; apply IHa; solve [assumption|lia]] ].
  - intros d i l u Hd Hi Hf. cbn [um_object].
    repeat safe_step; try done;
      first [ apply IHo; solve [assumption|lia]
            | apply Hb; [apply IHe; solve [assumption|lia]|intros [? ?]; apply IHo; solve [assumption|lia]] ].
  - intros d i p k x Hd Hi Hp Hf. cbn [um_entry].
    repeat safe_step; try done;
      first [ apply IHe; solve [assumption|lia]
            | apply Hb; [apply IHv; solve [assumption|lia]|intros; apply IHe; solve [assumption|lia]] ].
Qed.

Lemma um_log_safe f d i o u :
  fits d → 0 ≤ i ≤ len d → len d - i < Z.of_nat f → never_panics (um_log f d i o u).
Proof.
  intros Hd. revert i o u. induction f as [|f IH]; intros i o u Hi Hf; [lia|].
  cbn [um_log]. repeat safe_step; try done; [|apply IH; lia].
  pose proof (proj1 (proj2 (proj2 (um_safe (S (length s)))))) as Ho.
  specialize (Ho s 0 (po_fields match o with Some x => x | None => mkPObj [] [] end)
    (po_unrec match o with Some x => x | None => mkPObj [] [] end) ltac:(assumption)
    ltac:(pose proof (len_nonneg s); lia) ltac:(unfold len; lia)).
  cbn zeta. destruct um_object; cbn [rbind]; [apply IH; lia|done|done].
Qed.

Lemma um_wrapper_safe f d i m u :
  fits d → 0 ≤ i ≤ len d → len d - i < Z.of_nat f → never_panics (um_wrapper f d i m u).
Proof.
  intros Hd. revert i m u. induction f as [|f IH]; intros i m u Hi Hf; [lia|].
  cbn [um_wrapper]. repeat safe_step; try done; [|apply IH; lia].
  pose proof (um_log_safe (S (length s)) s 0 None [] ltac:(assumption)
    ltac:(pose proof (len_nonneg s); lia) ltac:(unfold len; lia)) as Ho.
  destruct um_log; cbn [rbind]; [apply IH; lia|done|done].
Qed.

Lemma Unmarshal_safe d : fits d → Unmarshal d ≠ RPanic.
Proof. intros H. apply um_wrapper_safe; [done|pose proof (len_nonneg d); lia|unfold len; lia]. Qed.
Lemma UnmarshalLog_safe d : fits d → UnmarshalLog d ≠ RPanic.
Proof. intros H. apply um_log_safe; [done|pose proof (len_nonneg d); lia|unfold len; lia]. Qed.
Lemma UnmarshalValue_safe d : fits d → UnmarshalValue d ≠ RPanic.
Proof. intros H. apply um_safe; [done|pose proof (len_nonneg d); lia|unfold len; lia]. Qed.
