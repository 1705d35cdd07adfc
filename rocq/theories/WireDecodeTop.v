(** * Unmarshal computes what WireMeaning.v says: logs, wrappers and plain entries *)
From Verif Require Export WireDecode.
Local Open Scope Z_scope.

Lemma object_iff s fs u x : fits s → um_object (S (length s)) s 0 fs u = ROk x ↔ object_is fs u s x.
Proof.
  intros Hf. split; intros H.
  - by apply (proj1 (proj2 (proj2 (um_sound (S (length s))))) s [] s) in H.
  - by apply (proj1 (proj2 (proj2 um_complete)) fs u s x H s [] (S (length s))); [| |lia].
Qed.

(** Which field an unknown field read at this place is. *)
Lemma other_num d pre l limit uu j num wt j' : d = pre ++ l → fits d → limit ≤ len d →
  read_head d (len pre) = ROk (num, wt, j') → num ≠ 1 → read_unknown d (len pre) limit = ROk (uu, j) →
  ∃ p l2, l = uu ++ l2 ∧ d = (pre ++ uu) ++ l2 ∧ field uu num p ∧ 1 < num ∧ j = len (pre ++ uu).
Proof.
  intros Hd Hf Hlim Eh Hne H. apply (unknown_at d pre l) in H as (num' & p & l2 & Hl2 & Hd2 & Hr & -> & _); [|done|done|done].
  exists p, l2. split_and!; try done.
  - pose proof Hr as Hr2. apply field_key in Hr2 as (k' & key' & rest & E & Hk' & Hn' & H4').
    assert (d = (pre ++ k') ++ rest ++ l2) as Hd3 by (rewrite Hd2, E; rewrite <- ?app_assoc; reflexivity).
    unfold read_head in Eh. rewrite (varint_there d pre k' (rest ++ l2) key') in Eh by done. cbn [rbind] in Eh.
    rewrite land7, <- number_s32 in Eh. destruct (_ =? 4)%Z; [done|]. destruct (_ <=? 0)%Z; [done|].
    injection Eh as <- _ _. by rewrite <- Hn'.
  - pose proof Eh as Eh2. apply (head_at d pre l) in Eh2 as (kb & key & l1 & _ & _ & _ & _ & _ & _ & _ & Hpos); [lia|done].
Qed.

Lemma log_sound f : ∀ d pre l o u x, d = pre ++ l → fits d → um_log f d (len pre) o u = ROk x → log_is o u l x.
Proof.
  induction f as [|f IH]; [done|]. intros d pre l o u x Hd Hf H. cbn [um_log] in H.
  destruct (Z.ltb_spec (len pre) (len d)) as [Hlt|Hge].
  2:{ rewrite Z.gtb_ltb in H. rewrite Hd, len_app in Hge. pose proof (len_nonneg l).
      destruct l as [|c l]; [|rewrite len_cons in Hge; pose proof (len_nonneg l); lia].
      destruct (_ <? _); [done|]. injection H as <-. constructor. }
  destruct (read_head d (len pre)) as [[[num wt] j]| |] eqn:Eh; cbn [rbind] in H; [|done|done].
  pose proof Eh as Eh0. apply (head_at d pre l) in Eh as (kb & key & l1 & Hl & Hd1 & Hk & Hnum & Hwt & -> & H4 & Hpos); [|done].
  destruct (Z.eqb_spec num 1) as [E1|N1].
  - destruct (Z.eqb_spec wt 2) as [W|]; [|done]. cbn [negb] in H. known H d pre kb l1 Hd1.
    assert (fits ss) as Hfs by sizes.
    destruct (um_object (S (length ss)) ss 0 _ _) as [a| |] eqn:Ea; cbn [rbind] in H; [|done|done].
    apply object_iff in Ea; [|done].
    apply (IH d ((pre ++ kb) ++ bb ++ ss) l2) in H; [|done|done]. subst l.
    replace (kb ++ bb ++ ss ++ l2) with ((kb ++ bb ++ ss) ++ l2) by (by rewrite <- !app_assoc).
    eapply li_object; [| |exact H]; [rewrite <- E1, Hnum; eapply f_bytes; [done|congruence|done|done]|by destruct o].
  - known H d pre kb l1 Hd1.
    destruct (other_num d pre l (len d) uu jj num wt _ Hd Hf ltac:(lia) Eh0 N1 Evv) as (p & l2 & Hl2 & Hd2 & Hr & Hgt & ->).
    apply (IH d (pre ++ uu) l2) in H; [|done|done]. rewrite Hl2. by eapply li_other.
Qed.
Lemma log_complete o u b x : log_is o u b x → ∀ d pre f, d = pre ++ b → fits d → (length b < f)%nat →
  um_log f d (len pre) o u = ROk x.
Proof.
  induction 1 as [o u|o u raw s o' b x Hr Ho _ IH|o u raw num p b x Hr Hnum _ IH]; intros d pre f Hd Hf Hl.
  - destruct f as [|f]; [simpl in Hl; lia|]. cbn [um_log]. rewrite Hd, app_nil_r, Z.gtb_ltb, Z.ltb_irrefl. done.
  - destruct f as [|f]; [lia|]. cbn [um_log].
    apply field_bytes in Hr as (kb & key & bb & nn & -> & Hk & Hn & Hw & Hb & Hs).
    enter Hf d pre kb key (bb ++ s ++ b). rewrite <- Hn, Hw. cbn [Z.eqb Pos.eqb negb].
    destruct (len_there d (pre ++ kb) bb nn s b) as [-> Hsl]; [asc Hd|done|done|done|]. cbn [rbind]. rewrite Hsl. cbn [rbind].
    assert (fits s) as Hfs by sizes.
    rewrite (proj2 (object_iff s _ _ o' Hfs)) by (by destruct o). cbn [rbind].
    apply IH; [asc Hd|done|sizes].
  - destruct f as [|f]; [lia|]. cbn [um_log].
    pose proof (field_key _ _ _ Hr) as (kb & key & rest & Hraw & Hk & Hn & H4). pose proof (is_varint_len _ _ Hk) as Hkl.
    assert (1 ≤ len raw) as Hrl by (rewrite Hraw, len_app; pose proof (len_nonneg rest); lia). clear Hkl.
    rewrite (proj2 (Z.ltb_lt (len pre) (len d))) by (clear Hraw; sizes).
    rewrite (head_there d pre kb key (rest ++ b)) by (done || lia || (rewrite Hd, Hraw; rewrite <- ?app_assoc; reflexivity)). clear Hraw. cbn [rbind].
    rewrite <- Hn. repeat rewrite (proj2 (Z.eqb_neq num _)) by lia.
    rewrite (unknown_there d pre raw b (len d) num p) by (done || asc Hd || sizes). cbn [rbind].
    apply IH; [asc Hd|done|sizes].
Qed.
Lemma log_iff s o u x : fits s → um_log (S (length s)) s 0 o u = ROk x ↔ log_is o u s x.
Proof.
  intros Hf. split; intros H.
  - by apply (log_sound (S (length s)) s [] s) in H.
  - by apply (log_complete o u s x H s [] (S (length s))); [| |lia].
Qed.

Lemma wrapper_sound f : ∀ d pre l o u x, d = pre ++ l → fits d → um_wrapper f d (len pre) o u = ROk x → wrapper_is o u l x.
Proof.
  induction f as [|f IH]; [done|]. intros d pre l o u x Hd Hf H. cbn [um_wrapper] in H.
  destruct (Z.ltb_spec (len pre) (len d)) as [Hlt|Hge].
  2:{ rewrite Z.gtb_ltb in H. rewrite Hd, len_app in Hge. pose proof (len_nonneg l).
      destruct l as [|c l]; [|rewrite len_cons in Hge; pose proof (len_nonneg l); lia].
      destruct (_ <? _); [done|]. injection H as <-. constructor. }
  destruct (read_head d (len pre)) as [[[num wt] j]| |] eqn:Eh; cbn [rbind] in H; [|done|done].
  pose proof Eh as Eh0. apply (head_at d pre l) in Eh as (kb & key & l1 & Hl & Hd1 & Hk & Hnum & Hwt & -> & H4 & Hpos); [|done].
  destruct (Z.eqb_spec num 1) as [E1|N1].
  - destruct (Z.eqb_spec wt 2) as [W|]; [|done]. cbn [negb] in H. known H d pre kb l1 Hd1.
    assert (fits ss) as Hfs by sizes.
    destruct (um_log (S (length ss)) ss 0 _ _) as [a| |] eqn:Ea; cbn [rbind] in H; [|done|done].
    apply log_iff in Ea; [|done].
    apply (IH d ((pre ++ kb) ++ bb ++ ss) l2) in H; [|done|done]. subst l.
    replace (kb ++ bb ++ ss ++ l2) with ((kb ++ bb ++ ss) ++ l2) by (by rewrite <- !app_assoc).
    eapply wi_log; [| |exact H]; [rewrite <- E1, Hnum; eapply f_bytes; [done|congruence|done|done]|done].
  - known H d pre kb l1 Hd1.
    destruct (other_num d pre l (len d) uu jj num wt _ Hd Hf ltac:(lia) Eh0 N1 Evv) as (p & l2 & Hl2 & Hd2 & Hr & Hgt & ->).
    apply (IH d (pre ++ uu) l2) in H; [|done|done]. rewrite Hl2. by eapply wi_other.
Qed.
Lemma wrapper_complete o u b x : wrapper_is o u b x → ∀ d pre f, d = pre ++ b → fits d → (length b < f)%nat →
  um_wrapper f d (len pre) o u = ROk x.
Proof.
  induction 1 as [o u|o u raw s o' b x Hr Ho _ IH|o u raw num p b x Hr Hnum _ IH]; intros d pre f Hd Hf Hl.
  - destruct f as [|f]; [simpl in Hl; lia|]. cbn [um_wrapper]. rewrite Hd, app_nil_r, Z.gtb_ltb, Z.ltb_irrefl. done.
  - destruct f as [|f]; [lia|]. cbn [um_wrapper].
    apply field_bytes in Hr as (kb & key & bb & nn & -> & Hk & Hn & Hw & Hb & Hs).
    enter Hf d pre kb key (bb ++ s ++ b). rewrite <- Hn, Hw. cbn [Z.eqb Pos.eqb negb].
    destruct (len_there d (pre ++ kb) bb nn s b) as [-> Hsl]; [asc Hd|done|done|done|]. cbn [rbind]. rewrite Hsl. cbn [rbind].
    assert (fits s) as Hfs by sizes.
    rewrite (proj2 (log_iff s _ _ o' Hfs)) by done. cbn [rbind].
    apply IH; [asc Hd|done|sizes].
  - destruct f as [|f]; [lia|]. cbn [um_wrapper].
    pose proof (field_key _ _ _ Hr) as (kb & key & rest & Hraw & Hk & Hn & H4). pose proof (is_varint_len _ _ Hk) as Hkl.
    assert (1 ≤ len raw) as Hrl by (rewrite Hraw, len_app; pose proof (len_nonneg rest); lia). clear Hkl.
    rewrite (proj2 (Z.ltb_lt (len pre) (len d))) by (clear Hraw; sizes).
    rewrite (head_there d pre kb key (rest ++ b)) by (done || lia || (rewrite Hd, Hraw; rewrite <- ?app_assoc; reflexivity)). clear Hraw. cbn [rbind].
    rewrite <- Hn. repeat rewrite (proj2 (Z.eqb_neq num _)) by lia.
    rewrite (unknown_there d pre raw b (len d) num p) by (done || asc Hd || sizes). cbn [rbind].
    apply IH; [asc Hd|done|sizes].
Qed.
Lemma wrapper_iff s : fits s → ∀ x, Unmarshal s = ROk x ↔ wrapper_is None [] s x.
Proof.
  intros Hf x. unfold Unmarshal. split; intros H.
  - by apply (wrapper_sound (S (length s)) s [] s) in H.
  - by apply (wrapper_complete None [] s x H s [] (S (length s))); [| |lia].
Qed.
Lemma value_iff s : fits s → ∀ x, UnmarshalValue s = ROk x ↔ value_is KNil [] s x.
Proof.
  intros Hf x. unfold UnmarshalValue. split; intros H.
  - by apply (proj1 (um_sound (S (length s))) s [] s) in H.
  - by apply (proj1 um_complete KNil [] s x H s [] (S (length s))); [| |lia].
Qed.

(** A well-formed entry is read as such, whatever follows it. *)
Lemma plain_entry s key v r : entry_plain s key v r → ∀ b, entry_is (len s) (s ++ b) key v r.
Proof.
  induction 1 as [key v|raw s' b key v r Hr _ IH|raw s' x b key v r Hr Hx _ IH|raw num p b key v r Hr H1 H2 _ IH]; intros c.
  - constructor. rewrite len_nil. lia.
  - apply field_bytes in Hr as (kb & kv & bb & nn & -> & Hk & Hn & Hw & Hb & Hs).
    replace (((kb ++ bb ++ s') ++ b) ++ c) with (kb ++ bb ++ s' ++ (b ++ c)) by (by rewrite <- !app_assoc).
    eapply ei_key; [|exact Hk|done|exact Hb|done|].
    { pose proof (is_varint_len _ _ Hk). rewrite !len_app. lens. lia. }
    replace (len ((kb ++ bb ++ s') ++ b) - len (kb ++ bb ++ s')) with (len b) by (rewrite !len_app; lia). apply IH.
  - apply field_bytes in Hr as (kb & kv & bb & nn & -> & Hk & Hn & Hw & Hb & Hs).
    replace (((kb ++ bb ++ s') ++ b) ++ c) with (kb ++ bb ++ s' ++ (b ++ c)) by (by rewrite <- !app_assoc).
    eapply ei_value; [|exact Hk|done|exact Hb|done|exact Hx|].
    { pose proof (is_varint_len _ _ Hk). rewrite !len_app. lens. lia. }
    replace (len ((kb ++ bb ++ s') ++ b) - len (kb ++ bb ++ s')) with (len b) by (rewrite !len_app; lia). apply IH.
  - pose proof (field_key _ _ _ Hr) as (kb & kv & rest & Hraw & Hk & Hn & H4). pose proof (is_varint_len _ _ Hk) as Hkl.
    assert (1 ≤ len raw) as Hrl by (rewrite Hraw, len_app; pose proof (len_nonneg rest); lia).
    rewrite <- app_assoc. eapply ei_other; [|exact Hr|done|done| |].
    + rewrite len_app. pose proof (len_nonneg b). lia.
    + rewrite len_app. pose proof (len_nonneg b). lia.
    + replace (len (raw ++ b) - len raw) with (len b) by (rewrite len_app; lia). apply IH.
Qed.
