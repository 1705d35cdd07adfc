(** * Unmarshal inverts the encoding *)
From Verif Require Export WireLocal.
Local Open Scope Z_scope.

(** ** Well-formed messages *)
Definition known_value (n : Z) : bool := (1 <=? n) && (n <=? 9).
Definition known_one (n : Z) : bool := n =? 1.

Definition list_each {A} (P : A → Prop) : list A → Prop :=
  fix go l := match l with [] => True | x :: l' => P x ∧ go l' end.
Definition kind_each {A} (P : A → Prop) (k : pkind A) : Prop :=
  match k with
  | KArray (Some (mkPArr items _)) => list_each (opt_all P) items
  | KObject (Some (mkPObj fields _)) => list_each (λ kv, opt_all P kv.2) fields
  | _ => True
  end.

Definition wf_obj_shape {A} (o : pobj A) : Prop :=
  NoDup (map fst (po_fields o)) ∧ unrec_ok known_one (po_unrec o).
(** Numbers in the range of their Go type, no nil array items and no typed nil
    kinds, no duplicate keys, and XXX_unrecognized holding unknown fields. *)
Definition wf_kind_shape {A} (k : pkind A) : Prop :=
  match k with
  | KNil | KBool _ => True
  | KNull z => - 2 ^ 31 ≤ z < 2 ^ 31
  | KArray a => match a with
                | None => False
                | Some a => Forall (λ x, x ≠ None) (pa_items a) ∧ unrec_ok known_one (pa_unrec a)
                end
  | KFloat v | KUint v => 0 ≤ v < 2 ^ 64
  | KInt z | KTime z => - 2 ^ 63 ≤ z < 2 ^ 63
  | KObject o => match o with None => False | Some o => wf_obj_shape o end
  | KString s => s ≠ None
  end.
Fixpoint wf_value (v : pval) : Prop :=
  match v with
  | PVal k u => unrec_ok known_value u ∧ wf_kind_shape k ∧ kind_each wf_value k
  end.
Definition wf_obj (o : pobj pval) : Prop := wf_obj_shape o ∧ obj_all wf_value o.
Definition wf_log (l : plog) : Prop := opt_all wf_obj (lg_object l) ∧ unrec_ok known_one (lg_unrec l).
Definition wf_wrapper (m : pwrapper) : Prop :=
  match mw_log m with None => True | Some None => False | Some (Some l) => wf_log l end
  ∧ unrec_ok known_one (mw_unrec m).

(** The same message with its maps in canonical order. *)
Definition sort_obj {A} (o : pobj A) : pobj A := match o with mkPObj f u => mkPObj (mof_list f) u end.
Definition sort_kind {A} (k : pkind A) : pkind A :=
  match k with KObject (Some o) => KObject (Some (sort_obj o)) | _ => k end.
Fixpoint canon (v : pval) : pval :=
  match v with PVal k u => PVal (sort_kind (kind_map canon k)) u end.
Definition canon_obj (o : pobj pval) : pobj pval := sort_obj (obj_map canon o).
Definition canon_log (l : plog) : plog := mkPLog (option_map canon_obj (lg_object l)) (lg_unrec l).
Definition canon_wrapper (m : pwrapper) : pwrapper :=
  mkPWrapper (option_map (option_map canon_log) (mw_log m)) (mw_unrec m).

Lemma list_each_Forall {A} (P : A → Prop) l : list_each P l ↔ Forall P l.
Proof.
  induction l as [|x l IH]; simpl; [split; [constructor|done]|].
  rewrite Forall_cons. by rewrite IH.
Qed.
Lemma kind_each_all {A} (P : A → Prop) k : kind_each P k ↔ kind_all P k.
Proof.
  destruct k as [|z|[[items u]|]|b|v|z|[[fields u]|]|[s|]|z|z]; simpl; try tauto; apply list_each_Forall.
Qed.

Lemma wf_nil_free v : wf_value v → nil_free v.
Proof.
  induction v as [k u IH] using pval_ind'. intros (_ & Hs & Hk).
  apply kind_each_all in Hk. apply nil_free_inv.
  destruct k as [|z|[[items ua]|]|b|v|z|[[fields uo]|]|[s|]|z|z]; simpl in *; try (split; done).
  - destruct Hs as [Hn _]. split; [exact Hn|].
    rewrite Forall_forall in IH, Hk |- *. intros [x|] Hx; [|done].
    specialize (IH _ Hx). specialize (Hk _ Hx). simpl in *. auto.
  - split; [done|].
    rewrite Forall_forall in IH, Hk |- *. intros [? [x|]] Hx; [|done].
    specialize (IH _ Hx). specialize (Hk _ Hx). simpl in *. auto.
Qed.

(** ** Reading back one field *)
Lemma tag_bits num wt : 1 ≤ num ≤ 9 → 0 ≤ wt < 8 →
  isU64 (num * 8 + wt) ∧ Z.shiftr (num * 8 + wt) 3 = num ∧ Z.land (num * 8 + wt) 7 = wt.
Proof.
  intros Hn Hw. split; [split; lia|]. split.
  - rewrite Z.shiftr_div_pow2 by lia. change (2^3) with 8. rewrite Z.div_add_l by lia.
    rewrite Z.div_small by lia. lia.
  - change 7 with (Z.ones 3). rewrite Z.land_ones by lia. change (2^3) with 8.
    rewrite Z.add_comm, Z.mod_add by lia. apply Z.mod_small. lia.
Qed.

Lemma head_varint d pre num wt rest :
  d = pre ++ tag num wt ++ rest → 1 ≤ num ≤ 9 → 0 ≤ wt < 8 →
  read_varint d (len pre) = ROk (num * 8 + wt, len (pre ++ tag num wt)).
Proof.
  intros -> Hn Hw. destruct (tag_bits num wt Hn Hw) as [H1 _].
  unfold tag. rewrite read_varint_ok by done. by rewrite len_app, varint_len.
Qed.

Lemma head_ok d pre num wt rest :
  d = pre ++ tag num wt ++ rest → 1 ≤ num ≤ 9 → 0 ≤ wt < 4 →
  read_head d (len pre) = ROk (num, wt, len (pre ++ tag num wt)).
Proof.
  intros Hd Hn Hw. unfold read_head.
  rewrite (head_varint d pre num wt rest) by (done || lia). cbn [rbind].
  destruct (tag_bits num wt Hn ltac:(lia)) as (_ & -> & ->).
  rewrite (proj2 (Z.eqb_neq wt 4)) by lia. rewrite s32_id by lia.
  by rewrite (proj2 (Z.leb_gt num 0)) by lia.
Qed.

Lemma numeric_read d pre num v rest :
  d = pre ++ numeric num v ++ rest → 1 ≤ num ≤ 9 → isU64 v →
  ∃ j, read_head d (len pre) = ROk (num, 0, j) ∧ read_varint d j = ROk (v, len (pre ++ numeric num v)).
Proof.
  intros -> Hn Hv. unfold numeric. exists (len (pre ++ tag num 0)). split.
  - eapply head_ok; [|done|lia]. by rewrite <- app_assoc.
  - replace (pre ++ (tag num 0 ++ varint v) ++ rest) with ((pre ++ tag num 0) ++ varint v ++ rest)
      by (by rewrite <- !app_assoc).
    rewrite read_varint_ok by done. f_equal. f_equal.
    rewrite !len_app, varint_len by done. lia.
Qed.

Lemma read_len_ok pre e rest :
  fits (pre ++ varint (u64 (len e)) ++ e ++ rest) →
  read_len (pre ++ varint (u64 (len e)) ++ e ++ rest) (len pre)
    = ROk (len (pre ++ varint (u64 (len e))), len (pre ++ varint (u64 (len e)) ++ e)).
Proof.
  intros Hf. unfold fits in Hf. rewrite !len_app in Hf.
  pose proof (len_nonneg pre). pose proof (len_nonneg (varint (u64 (len e)))).
  pose proof (len_nonneg e). pose proof (len_nonneg rest).
  unfold read_len. rewrite read_varint_ok by apply u64_is. cbn [rbind].
  rewrite s64_u64 by lia.
  rewrite (proj2 (Z.ltb_ge (len e) 0)) by lia.
  rewrite <- varint_len by apply u64_is.
  rewrite s64_id by lia.
  rewrite (proj2 (Z.ltb_ge _ 0)) by lia.
  rewrite Z.gtb_ltb, (proj2 (Z.ltb_ge _ _)) by (rewrite !len_app; lia).
  rewrite !len_app. do 2 f_equal; lia.
Qed.

Lemma delim_body d pre num e rest :
  d = pre ++ delimited num e ++ rest → fits d → 
  ∃ a pre', read_len d (len (pre ++ tag num 2)) = ROk (a, len (pre ++ delimited num e)) ∧
    slice d a (len (pre ++ delimited num e)) = ROk e ∧
    d = pre' ++ e ++ rest ∧ a = len pre' ∧ len (pre ++ delimited num e) = len (pre' ++ e).
Proof.
  intros Hd Hf. unfold delimited in *.
  set (pre' := (pre ++ tag num 2) ++ varint (u64 (len e))).
  assert (d = (pre ++ tag num 2) ++ varint (u64 (len e)) ++ e ++ rest) as Hd1
    by (rewrite Hd, <- !app_assoc; done).
  assert (d = pre' ++ e ++ rest) as Hd2 by (unfold pre'; rewrite Hd, <- !app_assoc; done).
  assert (pre ++ tag num 2 ++ varint (u64 (len e)) ++ e = pre' ++ e) as He
    by (unfold pre'; rewrite <- !app_assoc; done).
  exists (len pre'), pre'. rewrite He. split_and!; try done.
  - rewrite Hd1 in Hf |- *. rewrite read_len_ok by done. f_equal. f_equal.
    unfold pre'. by rewrite <- !app_assoc.
  - rewrite Hd2. by apply slice_exact.
Qed.

Lemma delim_read d pre num e rest :
  d = pre ++ delimited num e ++ rest → fits d → 1 ≤ num ≤ 9 →
  ∃ j a pre', read_head d (len pre) = ROk (num, 2, j) ∧
    read_len d j = ROk (a, len (pre ++ delimited num e)) ∧
    slice d a (len (pre ++ delimited num e)) = ROk e ∧
    d = pre' ++ e ++ rest ∧ a = len pre' ∧ len (pre ++ delimited num e) = len (pre' ++ e).
Proof.
  intros Hd Hf Hn. destruct (delim_body d pre num e rest Hd Hf) as (a & pre' & H1 & H2 & H3 & H4 & H5).
  exists (len (pre ++ tag num 2)), a, pre'. split_and!; try done.
  eapply head_ok; [|done|lia]. rewrite Hd. unfold delimited. by rewrite <- !app_assoc.
Qed.

Lemma le_value_bytes n v : 0 ≤ v < 256 ^ Z.of_nat n → le_value (le_bytes n v) = v.
Proof.
  revert v. induction n as [|n IH]; intros v Hv; [change (le_value (le_bytes 0 v)) with 0; simpl in Hv; lia|].
  rewrite Nat2Z.inj_succ, Z.pow_succ_r in Hv by lia.
  change (le_bytes (S n) v) with (to_byte v :: le_bytes n (Z.shiftr v 8)). cbn [le_value].
  replace (to_byte v) with (to_byte (v mod 256)) by (unfold to_byte; by rewrite Zmod_mod).
  pose proof (Z.mod_pos_bound v 256 ltac:(lia)). rewrite bval_to_byte by lia.
  rewrite Z.shiftr_div_pow2 by lia. change (2^8) with 256.
  rewrite IH. { pose proof (Z.div_mod v 256). lia. }
  split; [apply Z.div_pos; lia|apply Z.div_lt_upper_bound; lia].
Qed.

(** ** Messages *)
Ltac eqb_simpl :=
  repeat match goal with
  | |- context [ (?a =? ?b)%Z ] =>
      first [ rewrite (Z.eqb_refl a)
            | rewrite (proj2 (Z.eqb_neq a b)) by lia
            | rewrite (proj2 (Z.eqb_eq a b)) by lia ]
  end; cbn [negb].

Lemma len_lt pre e rest d : d = pre ++ e ++ rest → 0 < len e → (len pre <? len d) = true.
Proof.
  intros -> H. apply Z.ltb_lt. rewrite !len_app. pose proof (len_nonneg rest). lia.
Qed.

Lemma fits_part a b c : fits (a ++ b ++ c) → fits b.
Proof.
  unfold fits. rewrite !len_app. pose proof (len_nonneg a). pose proof (len_nonneg c). lia.
Qed.

Section unrec.
  (** The loops over unknown fields at the end of each message. *)
  Lemma um_value_unrec u : unrec_ok known_value u → ∀ f pre k u0,
    fits (pre ++ u) → (length u < f)%nat → um_value f (pre ++ u) (len pre) k u0 = ROk (PVal k (u0 ++ u)).
  Proof.
    induction 1 as [|c u Hc Hu IH]; intros f pre k u0 Hf Hl; (destruct f as [|f]; [simpl in Hl; lia|]).
    - rewrite !app_nil_r. cbn [um_value]. by rewrite Z.ltb_irrefl, Z.gtb_ltb, Z.ltb_irrefl.
    - assert (fits c) as Hfc by (eapply fits_part; exact Hf).
      pose proof (chunk_nonempty _ _ Hfc Hc) as Hne.
      cbn [um_value]. rewrite (len_lt pre c u) by done.
      pose proof Hc as [(num & wt & j & Hh & Hk) _].
      pose proof (read_head_shift pre c u 0 num wt j ltac:(lia) Hh) as Hh'. rewrite Z.add_0_r in Hh'.
      rewrite Hh'. cbn [rbind].
      rewrite (read_unknown_ok known_value) by (done || (rewrite !len_app; pose proof (len_nonneg u); lia)).
      cbn [rbind]. unfold known_value in Hk.
      assert (¬ (1 ≤ num ≤ 9)). { intros [??]. rewrite !(proj2 (Z.leb_le _ _)) in Hk by lia. done. }
      eqb_simpl. rewrite (app_assoc pre).
      rewrite IH; [by rewrite <- app_assoc|by rewrite <- app_assoc|].
      rewrite app_length in Hl. unfold len in Hne. lia.
  Qed.
  Lemma um_array_unrec u : unrec_ok known_one u → ∀ f pre k u0,
    fits (pre ++ u) → (length u < f)%nat → um_array f (pre ++ u) (len pre) k u0 = ROk (mkPArr k (u0 ++ u)).
  Proof.
    induction 1 as [|c u Hc Hu IH]; intros f pre k u0 Hf Hl; (destruct f as [|f]; [simpl in Hl; lia|]).
    - rewrite !app_nil_r. cbn [um_array]. by rewrite Z.ltb_irrefl, Z.gtb_ltb, Z.ltb_irrefl.
    - assert (fits c) as Hfc by (eapply fits_part; exact Hf).
      pose proof (chunk_nonempty _ _ Hfc Hc) as Hne.
      cbn [um_array]. rewrite (len_lt pre c u) by done.
      pose proof Hc as [(num & wt & j & Hh & Hk) _].
      pose proof (read_head_shift pre c u 0 num wt j ltac:(lia) Hh) as Hh'. rewrite Z.add_0_r in Hh'.
      rewrite Hh'. cbn [rbind]. unfold known_one in Hk. rewrite Hk.
      rewrite (read_unknown_ok known_one) by (done || (rewrite !len_app; pose proof (len_nonneg u); lia)).
      cbn [rbind]. rewrite (app_assoc pre).
      rewrite IH; [by rewrite <- app_assoc|by rewrite <- app_assoc|].
      rewrite app_length in Hl. unfold len in Hne. lia.
  Qed.
  Lemma um_object_unrec u : unrec_ok known_one u → ∀ f pre k u0,
    fits (pre ++ u) → (length u < f)%nat → um_object f (pre ++ u) (len pre) k u0 = ROk (mkPObj k (u0 ++ u)).
  Proof.
    induction 1 as [|c u Hc Hu IH]; intros f pre k u0 Hf Hl; (destruct f as [|f]; [simpl in Hl; lia|]).
    - rewrite !app_nil_r. cbn [um_object]. by rewrite Z.ltb_irrefl, Z.gtb_ltb, Z.ltb_irrefl.
    - assert (fits c) as Hfc by (eapply fits_part; exact Hf).
      pose proof (chunk_nonempty _ _ Hfc Hc) as Hne.
      cbn [um_object]. rewrite (len_lt pre c u) by done.
      pose proof Hc as [(num & wt & j & Hh & Hk) _].
      pose proof (read_head_shift pre c u 0 num wt j ltac:(lia) Hh) as Hh'. rewrite Z.add_0_r in Hh'.
      rewrite Hh'. cbn [rbind]. unfold known_one in Hk. rewrite Hk.
      rewrite (read_unknown_ok known_one) by (done || (rewrite !len_app; pose proof (len_nonneg u); lia)).
      cbn [rbind]. rewrite (app_assoc pre).
      rewrite IH; [by rewrite <- app_assoc|by rewrite <- app_assoc|].
      rewrite app_length in Hl. unfold len in Hne. lia.
  Qed.
  Lemma um_log_unrec u : unrec_ok known_one u → ∀ f pre k u0,
    fits (pre ++ u) → (length u < f)%nat → um_log f (pre ++ u) (len pre) k u0 = ROk (mkPLog k (u0 ++ u)).
  Proof.
    induction 1 as [|c u Hc Hu IH]; intros f pre k u0 Hf Hl; (destruct f as [|f]; [simpl in Hl; lia|]).
    - rewrite !app_nil_r. cbn [um_log]. by rewrite Z.ltb_irrefl, Z.gtb_ltb, Z.ltb_irrefl.
    - assert (fits c) as Hfc by (eapply fits_part; exact Hf).
      pose proof (chunk_nonempty _ _ Hfc Hc) as Hne.
      cbn [um_log]. rewrite (len_lt pre c u) by done.
      pose proof Hc as [(num & wt & j & Hh & Hk) _].
      pose proof (read_head_shift pre c u 0 num wt j ltac:(lia) Hh) as Hh'. rewrite Z.add_0_r in Hh'.
      rewrite Hh'. cbn [rbind]. unfold known_one in Hk. rewrite Hk.
      rewrite (read_unknown_ok known_one) by (done || (rewrite !len_app; pose proof (len_nonneg u); lia)).
      cbn [rbind]. rewrite (app_assoc pre).
      rewrite IH; [by rewrite <- app_assoc|by rewrite <- app_assoc|].
      rewrite app_length in Hl. unfold len in Hne. lia.
  Qed.
  Lemma um_wrapper_unrec u : unrec_ok known_one u → ∀ f pre k u0,
    fits (pre ++ u) → (length u < f)%nat → um_wrapper f (pre ++ u) (len pre) k u0 = ROk (mkPWrapper k (u0 ++ u)).
  Proof.
    induction 1 as [|c u Hc Hu IH]; intros f pre k u0 Hf Hl; (destruct f as [|f]; [simpl in Hl; lia|]).
    - rewrite !app_nil_r. cbn [um_wrapper]. by rewrite Z.ltb_irrefl, Z.gtb_ltb, Z.ltb_irrefl.
    - assert (fits c) as Hfc by (eapply fits_part; exact Hf).
      pose proof (chunk_nonempty _ _ Hfc Hc) as Hne.
      cbn [um_wrapper]. rewrite (len_lt pre c u) by done.
      pose proof Hc as [(num & wt & j & Hh & Hk) _].
      pose proof (read_head_shift pre c u 0 num wt j ltac:(lia) Hh) as Hh'. rewrite Z.add_0_r in Hh'.
      rewrite Hh'. cbn [rbind]. unfold known_one in Hk. rewrite Hk.
      rewrite (read_unknown_ok known_one) by (done || (rewrite !len_app; pose proof (len_nonneg u); lia)).
      cbn [rbind]. rewrite (app_assoc pre).
      rewrite IH; [by rewrite <- app_assoc|by rewrite <- app_assoc|].
      rewrite app_length in Hl. unfold len in Hne. lia.
  Qed.
End unrec.

Definition reads_back (v : pval) : Prop :=
  fits (enc_value v) → ∀ f, (length (enc_value v) < f)%nat →
  um_value f (enc_value v) 0 KNil [] = ROk (canon v).

Lemma delimited_nonempty num e : 1 ≤ num ≤ 9 → 0 < len (delimited num e).
Proof.
  intros H. rewrite len_delimited by lia. pose proof (len_nonneg e). pose proof (sov_le_10 _ (u64_is (len e))). lia.
Qed.
Lemma length_delimited num e : 1 ≤ num ≤ 9 → (length e + 2 ≤ length (delimited num e))%nat.
Proof.
  intros H. pose proof (len_delimited num e ltac:(lia)) as Hl. pose proof (sov_le_10 _ (u64_is (len e))).
  unfold len in *. lia.
Qed.

Lemma um_array_items items : Forall (λ x, x ≠ None) items → Forall (opt_all reads_back) items →
  ∀ u, unrec_ok known_one u → ∀ f pre acc,
  let e := enc_items (map enc_opt (map (option_map enc_value) items)) in
  fits (pre ++ e ++ u) → (length (e ++ u) < f)%nat →
  um_array f (pre ++ e ++ u) (len pre) acc [] = ROk (mkPArr (acc ++ map (option_map canon) items) u).
Proof.
  intros Hn Hall u Hu. induction items as [|x items IH]; intros f pre acc e Hf Hl.
  - unfold e. simpl. rewrite app_nil_r. by apply um_array_unrec.
  - apply Forall_cons in Hn as [Hx Hn]. apply Forall_cons in Hall as [Hv Hall].
    destruct x as [v|]; [|done]. simpl in Hv. unfold e in *. clear e.
    unfold enc_items in *. cbn [map List.concat option_map enc_opt] in *.
    fold (enc_items (map enc_opt (map (option_map enc_value) items))) in *.
    set (e := enc_items _) in *.
    destruct f as [|f]; [lia|].
    set (d := pre ++ (delimited 1 (enc_value v) ++ e) ++ u) in *.
    assert (d = pre ++ delimited 1 (enc_value v) ++ (e ++ u)) as Hd by (unfold d; by rewrite <- !app_assoc).
    destruct (delim_read d pre 1 (enc_value v) (e ++ u) Hd Hf ltac:(lia))
      as (j & a & pre' & Hh & Hr & Hs & Hd' & Ha & Hb).
    cbn [um_array]. rewrite (len_lt pre (delimited 1 (enc_value v)) (e ++ u)) by
        (done || (apply delimited_nonempty; lia)).
    rewrite Hh. cbn [rbind]. eqb_simpl. rewrite Hr. cbn [rbind]. rewrite Hs. cbn [rbind].
    rewrite !app_length in Hl.
    pose proof (length_delimited 1 (enc_value v) ltac:(lia)).
    rewrite (Hv ltac:(rewrite Hd' in Hf; eapply fits_part; exact Hf)) by lia. cbn [rbind].
    assert (d = (pre ++ delimited 1 (enc_value v)) ++ e ++ u) as Hd2 by (rewrite Hd; by rewrite <- app_assoc).
    rewrite Hd2. rewrite IH; [|done|done|by rewrite <- Hd2|rewrite app_length; lia].
    by rewrite <- app_assoc.
Qed.

Lemma um_entry_ok k x f pre suf :
  opt_all reads_back x →
  let body := delimited 1 (list_ascii_of_string k)
        ++ match option_map enc_value x with None => [] | Some v => delimited 2 v end in
  fits (pre ++ body ++ suf) → (length body < f)%nat →
  um_entry f (pre ++ body ++ suf) (len pre) (len (pre ++ body)) "" None = ROk (k, option_map canon x).
Proof.
  intros Hx body Hf Hl. set (d := pre ++ body ++ suf) in *.
  set (ke := list_ascii_of_string k) in *.
  set (ve := match option_map enc_value x with None => [] | Some v => delimited 2 v end) in *.
  assert (len (pre ++ body) = len (pre ++ delimited 1 ke ++ ve)) as Hpost by done.
  destruct f as [|f]; [lia|].
  assert (d = pre ++ delimited 1 ke ++ (ve ++ suf)) as Hd by (unfold d, body; by rewrite <- !app_assoc).
  destruct (delim_body d pre 1 ke (ve ++ suf) Hd Hf) as (a & pre' & Hr & Hs & Hd' & Ha & Hb).
  assert (d = pre ++ tag 1 2 ++ (varint (u64 (len ke)) ++ ke) ++ (ve ++ suf)) as Hdt
    by (rewrite Hd; unfold delimited; by rewrite <- !app_assoc).
  pose proof (head_varint d pre 1 2 _ Hdt ltac:(lia) ltac:(lia)) as Hh.
  destruct (tag_bits 1 2 ltac:(lia) ltac:(lia)) as (_ & Hsh & _).
  pose proof (delimited_nonempty 1 ke ltac:(lia)).
  pose proof (length_delimited 1 ke ltac:(lia)).
  cbn [um_entry]. rewrite (proj2 (Z.ltb_lt (len pre) _)).
  2:{ rewrite Hpost, !len_app. pose proof (len_nonneg ve). lia. }
  rewrite Hh. cbn [rbind]. rewrite Hsh, s32_id by lia. eqb_simpl.
  rewrite Hr. cbn [rbind]. rewrite Hs. cbn [rbind].
  unfold body in Hl. rewrite app_length in Hl.
  destruct f as [|f]; [lia|].
  assert (string_of_list_ascii ke = k) as Hk by apply string_of_list_ascii_of_string.
  cbn [um_entry].
  destruct x as [v|].
  - simpl in Hx. unfold ve in *. clear ve. cbn [option_map] in *.
    set (pre2 := pre ++ delimited 1 ke) in *. set (ve := delimited 2 (enc_value v)) in *.
    assert (d = pre2 ++ ve ++ suf) as Hd2 by (rewrite Hd; unfold pre2; by rewrite <- !app_assoc).
    destruct (delim_body d pre2 2 (enc_value v) suf Hd2 Hf) as (a2 & pre2' & Hr2 & Hs2 & Hd2' & Ha2 & Hb2).
    assert (d = pre2 ++ tag 2 2 ++ (varint (u64 (len (enc_value v))) ++ enc_value v) ++ suf) as Hdt2
      by (rewrite Hd2; unfold ve, delimited; by rewrite <- !app_assoc).
    pose proof (head_varint d pre2 2 2 _ Hdt2 ltac:(lia) ltac:(lia)) as Hh2.
    destruct (tag_bits 2 2 ltac:(lia) ltac:(lia)) as (_ & Hsh2 & _).
    pose proof (delimited_nonempty 2 (enc_value v) ltac:(lia)).
    pose proof (length_delimited 2 (enc_value v) ltac:(lia)).
    assert (len (pre ++ body) = len (pre2 ++ ve)) as -> by (unfold pre2, body; by rewrite <- app_assoc).
    rewrite (proj2 (Z.ltb_lt (len pre2) _)) by (rewrite !len_app; unfold ve; lia).
    rewrite Hh2. cbn [rbind]. rewrite Hsh2, s32_id by lia. eqb_simpl.
    rewrite Hr2. cbn [rbind]. unfold ve. rewrite Hs2. cbn [rbind].
    rewrite (Hx ltac:(rewrite Hd2' in Hf; eapply fits_part; exact Hf)) by (unfold ve in Hl; lia). cbn [rbind].
    destruct f as [|f]; [unfold ve in Hl; lia|]. cbn [um_entry].
    rewrite Z.ltb_irrefl. by rewrite Hk.
  - unfold ve in *. simpl in Hpost. rewrite !app_nil_r in Hpost.
    assert (len (pre ++ body) = len (pre ++ delimited 1 ke)) as -> by (unfold body; by rewrite app_nil_r).
    rewrite Z.ltb_irrefl. by rewrite Hk.
Qed.

Definition entry_canon (kv : string * option pval) : string * option pval := (kv.1, option_map canon kv.2).

Lemma um_object_fields fields : Forall (λ kv, opt_all reads_back kv.2) fields →
  ∀ u, unrec_ok known_one u → ∀ f pre acc,
  let e := concat (map enc_entry (map (λ kv, (kv.1, option_map enc_value kv.2)) fields)) in
  fits (pre ++ e ++ u) → (length (e ++ u) < f)%nat →
  um_object f (pre ++ e ++ u) (len pre) acc []
    = ROk (mkPObj (fold_left (λ m kv, mset kv.1 kv.2 m) (map entry_canon fields) acc) u).
Proof.
  intros Hall u Hu. induction fields as [|[k x] fields IH]; intros f pre acc e Hf Hl.
  - unfold e. simpl. by apply um_object_unrec.
  - apply Forall_cons in Hall as [Hv Hall]. simpl in Hv. unfold e in *. clear e.
    cbn [map List.concat fst snd] in *.
    set (e := concat (map enc_entry (map _ fields))) in *.
    destruct f as [|f]; [lia|].
    unfold enc_entry in *. cbn [fst snd] in *.
    set (body := delimited 1 (list_ascii_of_string k) ++ match option_map enc_value x with Some v => delimited 2 v | None => [] end) in *.
    set (d := pre ++ (delimited 1 body ++ e) ++ u) in *.
    assert (d = pre ++ delimited 1 body ++ (e ++ u)) as Hd by (unfold d; by rewrite <- !app_assoc).
    destruct (delim_read d pre 1 body (e ++ u) Hd Hf ltac:(lia))
      as (j & a & pre' & Hh & Hr & Hs & Hd' & Ha & Hb).
    cbn [um_object]. rewrite (len_lt pre (delimited 1 body) (e ++ u)) by
        (done || (apply delimited_nonempty; lia)).
    rewrite Hh. cbn [rbind]. eqb_simpl. rewrite Hr. cbn [rbind].
    rewrite !app_length in Hl.
    pose proof (length_delimited 1 body ltac:(lia)).
    pose proof (um_entry_ok k x f pre' (e ++ u) Hv) as He. cbn zeta in He.
    fold body in He. rewrite Ha, Hb. rewrite Hd' in Hf |- *.
    rewrite He by (done || lia). cbn [rbind].
    rewrite <- Hb, <- Hd', Hd. rewrite (app_assoc pre).
    rewrite IH; [done|done| |rewrite app_length; lia].
    rewrite <- app_assoc, <- Hd, Hd'. done.
Qed.

Lemma mof_list_rev {A} (l : list (string * A)) :
  NoDup (map fst l) → fold_left (λ m kv, mset kv.1 kv.2 m) (rev l) [] = mof_list l.
Proof.
  intros Hnd. change (mof_list (rev l) = mof_list l).
  apply gomap_ext; [apply msorted_mof_list|apply msorted_mof_list|].
  intros k. unfold mof_list.
  destruct (decide (k ∈ map fst l)) as [Hin|Hni].
  - apply elem_of_list_fmap in Hin as ([k' v] & -> & Hin). simpl.
    rewrite (mget_fold_mset_in _ v); [|..].
    + symmetry. apply mget_fold_mset_in; [done|by apply elem_of_list_In].
    + rewrite map_rev. by rewrite <- Permutation_rev.
    + apply in_rev. rewrite rev_involutive. by apply elem_of_list_In.
  - rewrite !mget_fold_mset_notin; try done.
    + intros Hin. apply Hni. by apply elem_of_list_In.
    + intros Hin. apply Hni. rewrite map_rev in Hin. apply in_rev in Hin. by apply elem_of_list_In.
Qed.

Lemma um_object_ok o : wf_obj_shape o → obj_all reads_back o → fits (enc_obj o) →
  ∀ f, (length (enc_obj o) < f)%nat → um_object f (enc_obj o) 0 [] [] = ROk (canon_obj o).
Proof.
  destruct o as [fields u]. intros [Hnd Hu] Hall Hf f Hl. simpl in *.
  unfold enc_obj, enc_obj0, enc_fields in *. simpl in *.
  rewrite <- map_rev in *.
  assert (Forall (λ kv, opt_all reads_back kv.2) (rev fields)) as Hall'.
  { apply Forall_forall. intros x Hx. rewrite Forall_forall in Hall. apply Hall.
    apply elem_of_list_In, in_rev. by apply elem_of_list_In. }
  etransitivity; [exact (um_object_fields (rev fields) Hall' u Hu f [] [] Hf Hl)|].
  unfold canon_obj. simpl. rewrite map_rev.
  change (map entry_canon fields) with (map (λ kv, (kv.1, option_map canon kv.2)) fields).
  rewrite mof_list_rev; [done|]. rewrite map_map. simpl. done.
Qed.

Lemma um_array_ok a : Forall (λ x, x ≠ None) (pa_items a) → unrec_ok known_one (pa_unrec a) →
  arr_all reads_back a → fits (enc_arr a) →
  ∀ f, (length (enc_arr a) < f)%nat → um_array f (enc_arr a) 0 [] [] = ROk (arr_map canon a).
Proof.
  destruct a as [items u]. intros Hn Hu Hall Hf f Hl. simpl in *.
  unfold enc_arr, enc_arr0 in *. simpl in *.
  exact (um_array_items items Hn Hall u Hu f [] [] Hf Hl).
Qed.

Lemma um_value_ok v : wf_value v → reads_back v.
Proof.
  induction v as [k u IH] using pval_ind'. intros (Hu & Hs & Hk) Hf f Hl.
  apply kind_each_all in Hk.
  assert (kind_all reads_back k) as Hsub.
  { destruct k as [|z|[[items ua]|]|b|v|z|[[fields uo]|]|[s|]|z|z]; simpl in *; try done;
      rewrite Forall_forall in IH, Hk |- *; intros x Hx; specialize (IH _ Hx); specialize (Hk _ Hx).
    - destruct x; simpl in *; auto.
    - destruct x as [? [x|]]; simpl in *; auto. }
  clear IH Hk. cbn [enc_value canon] in *. destruct f as [|f]; [lia|].
  set (e := enc_kind0 (kind_map enc_value k)) in *.
  assert (∀ k0, (0 < len e → um_value f (e ++ u) (len e) k0 [] = ROk (PVal k0 u))) as Hrest.
  { intros k0 He. apply (um_value_unrec u Hu f e k0 []); [done|].
    rewrite app_length in Hl. unfold len in He. lia. }
  assert (∀ num v, e = numeric num v → 1 ≤ num ≤ 9 → isU64 v →
    0 < len e ∧ ∃ j, read_head (e ++ u) 0 = ROk (num, 0, j) ∧ read_varint (e ++ u) j = ROk (v, len e)) as Hnum.
  { intros num v He Hn Hv. split; [rewrite He, len_numeric by (done || lia); pose proof (sov_le_10 v Hv); lia|].
    destruct (numeric_read (e ++ u) [] num v u) as (j & H1 & H2); [by rewrite He|done|done|].
    exists j. split; [exact H1|]. cbn [app] in H2. rewrite <- He in H2. exact H2. }
  assert (∀ num b, e = delimited num b → 1 ≤ num ≤ 9 →
    0 < len e ∧ fits b ∧ (length b < f)%nat ∧
    ∃ j a, read_head (e ++ u) 0 = ROk (num, 2, j) ∧ read_len (e ++ u) j = ROk (a, len e) ∧
      slice (e ++ u) a (len e) = ROk b) as Hdel.
  { intros num b He Hn.
    destruct (delim_read (e ++ u) [] num b u ltac:(by rewrite He) Hf Hn) as (j & a & pre' & H1 & H2 & H3 & H4 & _ & _).
    split_and!.
    - rewrite He. by apply delimited_nonempty.
    - rewrite H4 in Hf. eapply fits_part; exact Hf.
    - pose proof (length_delimited num b Hn). rewrite app_length, He in Hl. lia.
    - exists j, a. cbn [app] in H2, H3. rewrite <- He in H2, H3. split_and!; [exact H1|exact H2|exact H3]. }
  assert (0 < len e → (0 <? len (e ++ u)) = true) as Hpos.
  { intros H. apply Z.ltb_lt. rewrite len_app. pose proof (len_nonneg u). lia. }
  destruct k as [|z|[a|]|b|v|z|[o|]|[s|]|z|z]; try done.
  - exact (um_value_unrec u Hu (S f) [] KNil [] Hf Hl).
  - destruct (Hnum 1 (u64 z) eq_refl ltac:(lia) (u64_is z)) as (Hp & j & H1 & H2).
    cbn [um_value]. rewrite Hpos, H1 by done. cbn [rbind]. eqb_simpl. rewrite H2. cbn [rbind].
    rewrite Hrest by done. by rewrite s32_u64 by apply Hs.
  - destruct (Hdel 2 (enc_arr a) eq_refl ltac:(lia)) as (Hp & Hfb & Hlb & j & a0 & H1 & H2 & H3).
    cbn [um_value]. rewrite Hpos, H1 by done. cbn [rbind]. eqb_simpl. rewrite H2. cbn [rbind].
    rewrite H3. cbn [rbind]. destruct Hs as [Hs1 Hs2].
    rewrite um_array_ok by (assumption || lia). cbn [rbind]. rewrite Hrest by done. done.
  - assert (len e = 2) as He2 by reflexivity. assert (0 < len e) as Hp by lia.
    assert (read_head (e ++ u) 0 = ROk (3, 0, 1)) as H1.
    { change 1 with (len ([] ++ tag 3 0)). eapply (head_ok (e ++ u) []); [|lia|lia]. unfold e. cbn. done. }
    assert (read_varint (e ++ u) 1 = ROk (if b then 1 else 0, len e)) as H2.
    { replace (e ++ u) with (tag 3 0 ++ varint (if b then 1 else 0) ++ u) by (by destruct b).
      change 1 with (len (tag 3 0)) at 1. etransitivity; [exact (read_varint_ok (tag 3 0) u (if b then 1 else 0) ltac:(destruct b; split; lia))|].
      by destruct b. }
    cbn [um_value]. rewrite Hpos, H1 by done. cbn [rbind]. eqb_simpl. rewrite H2. cbn [rbind].
    rewrite Hrest by done. by destruct b.
  - assert (len e = 9) as He9 by reflexivity. assert (0 < len e) as Hp by lia.
    assert (read_head (e ++ u) 0 = ROk (4, 1, 1)) as H1.
    { change 1 with (len ([] ++ tag 4 1)) at 2. eapply (head_ok (e ++ u) []); [|lia|lia]. unfold e. cbn. done. }
    assert (slice (e ++ u) 1 (1 + 8) = ROk (le_bytes 8 v)) as H2.
    { apply (slice_exact (tag 4 1) (le_bytes 8 v) u); done. }
    cbn [um_value]. rewrite Hpos, H1 by done. cbn [rbind]. eqb_simpl.
    rewrite Z.gtb_ltb, (proj2 (Z.ltb_ge _ _)) by (rewrite len_app, He9; pose proof (len_nonneg u); lia).
    rewrite H2. cbn [rbind]. change (1 + 8) with 9. rewrite <- He9, Hrest by done.
    rewrite le_value_bytes; [done|]. simpl in Hs |- *. exact Hs.
  - destruct (Hnum 5 (u64 z) eq_refl ltac:(lia) (u64_is z)) as (Hp & j & H1 & H2).
    cbn [um_value]. rewrite Hpos, H1 by done. cbn [rbind]. eqb_simpl. rewrite H2. cbn [rbind].
    rewrite Hrest by done. by rewrite s64_u64 by apply Hs.
  - destruct (Hdel 6 (enc_obj o) eq_refl ltac:(lia)) as (Hp & Hfb & Hlb & j & a0 & H1 & H2 & H3).
    cbn [um_value]. rewrite Hpos, H1 by done. cbn [rbind]. eqb_simpl. rewrite H2. cbn [rbind].
    rewrite H3. cbn [rbind].
    rewrite um_object_ok by (assumption || lia). cbn [rbind]. rewrite Hrest by done. done.
  - destruct (Hdel 7 s eq_refl ltac:(lia)) as (Hp & Hfb & Hlb & j & a0 & H1 & H2 & H3).
    cbn [um_value]. rewrite Hpos, H1 by done. cbn [rbind]. eqb_simpl. rewrite H2. cbn [rbind].
    rewrite H3. cbn [rbind]. rewrite Hrest by done. done.
  - destruct (Hnum 8 (u64 z) eq_refl ltac:(lia) (u64_is z)) as (Hp & j & H1 & H2).
    cbn [um_value]. rewrite Hpos, H1 by done. cbn [rbind]. eqb_simpl. rewrite H2. cbn [rbind].
    rewrite Hrest by done. by rewrite s64_u64 by apply Hs.
  - destruct (Hnum 9 (u64 z) eq_refl ltac:(lia) (u64_is z)) as (Hp & j & H1 & H2).
    cbn [um_value]. rewrite Hpos, H1 by done. cbn [rbind]. eqb_simpl. rewrite H2. cbn [rbind].
    rewrite Hrest by done. by rewrite u64_id by apply Hs.
Qed.

Lemma obj_all_impl {A} (P Q : A → Prop) o : (∀ v, P v → Q v) → obj_all P o → obj_all Q o.
Proof.
  destruct o as [fields u]. simpl. intros HPQ H. eapply Forall_impl; [exact H|].
  intros [? [x|]]; simpl; auto.
Qed.

Lemma um_log_ok l : wf_log l → fits (enc_log l) →
  ∀ f, (length (enc_log l) < f)%nat → um_log f (enc_log l) 0 None [] = ROk (canon_log l).
Proof.
  destruct l as [o u]. intros [Ho Hu] Hf f Hl. cbn [lg_object lg_unrec] in *.
  unfold enc_log, canon_log in *. cbn [lg_object lg_unrec] in *.
  destruct o as [o|].
  2:{ exact (um_log_unrec u Hu f [] None [] Hf Hl). }
  destruct Ho as [Hs Hall]. destruct f as [|f]; [lia|].
  set (e := delimited 1 (enc_obj o)) in *.
  destruct (delim_read (e ++ u) [] 1 (enc_obj o) u eq_refl Hf ltac:(lia)) as (j & a & pre' & H1 & H2 & H3 & H4 & _ & _).
  cbn [app] in H2, H3. fold e in H2, H3. change (len []) with 0 in H1.
  assert (0 < len e) as Hp by (apply delimited_nonempty; lia).
  cbn [um_log]. rewrite (proj2 (Z.ltb_lt 0 _)) by (rewrite len_app; pose proof (len_nonneg u); lia).
  rewrite H1. cbn [rbind]. eqb_simpl. rewrite H2. cbn [rbind]. rewrite H3. cbn [rbind po_fields po_unrec].
  rewrite um_object_ok; [|done| | |lia].
  - cbn [rbind option_map].
    apply (um_log_unrec u Hu f e _ []); [done|]. rewrite app_length in Hl. unfold len in Hp. lia.
  - eapply obj_all_impl; [|exact Hall]. apply um_value_ok.
  - rewrite H4 in Hf. eapply fits_part; exact Hf.
Qed.

Lemma um_wrapper_ok m : wf_wrapper m → fits (enc_wrapper m) → Unmarshal (enc_wrapper m) = ROk (canon_wrapper m).
Proof.
  destruct m as [lg u]. intros [Ho Hu] Hf. cbn [mw_log mw_unrec] in *. unfold Unmarshal.
  unfold enc_wrapper, canon_wrapper in *. cbn [mw_log mw_unrec] in *.
  destruct lg as [[l|]|]; [|done|].
  2:{ apply (um_wrapper_unrec u Hu _ [] None [] Hf). simpl. lia. }
  set (e := delimited 1 (enc_log l)) in *.
  destruct (delim_read (e ++ u) [] 1 (enc_log l) u eq_refl Hf ltac:(lia)) as (j & a & pre' & H1 & H2 & H3 & H4 & _ & _).
  cbn [app] in H2, H3. fold e in H2, H3. change (len []) with 0 in H1.
  assert (0 < len e) as Hp by (apply delimited_nonempty; lia).
  cbn [um_wrapper]. rewrite (proj2 (Z.ltb_lt 0 _)) by (rewrite len_app; pose proof (len_nonneg u); lia).
  rewrite H1. cbn [rbind]. eqb_simpl. rewrite H2. cbn [rbind]. rewrite H3. cbn [rbind].
  rewrite um_log_ok; [|done| |lia].
  - cbn [rbind option_map].
    apply (um_wrapper_unrec u Hu _ e _ []); [done|]. rewrite app_length. unfold len in Hp. lia.
  - rewrite H4 in Hf. eapply fits_part; exact Hf.
Qed.
