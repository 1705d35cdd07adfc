(** * What Unmarshal returns is well formed; when Marshal panics *)
From Verif Require Export WireRound.
Local Open Scope Z_scope.

(** Well formed and with its maps in canonical order. *)
Definition good (v : pval) : Prop := wf_value v ∧ canon v = v.
Definition good_kind (k : pkind pval) : Prop := ∀ u, unrec_ok known_value u → good (PVal k u).
Definition good_fields (m : gomap (option pval)) : Prop :=
  msorted m ∧ Forall (λ kv, opt_all good kv.2) m.

Lemma good_arr items u :
  Forall (λ x, x ≠ None) items → Forall (opt_all good) items → unrec_ok known_one u →
  good_kind (KArray (Some (mkPArr items u))).
Proof.
  intros Hn Hall Hu u' Hu'. split.
  - simpl. split_and!; try done. apply list_each_Forall.
    eapply Forall_impl; [exact Hall|]. intros [x|]; [intros [? _]; done|done].
  - simpl. repeat f_equal. 
    induction items as [|x items IH]; [done|]. apply Forall_cons in Hn as [? Hn]. apply Forall_cons in Hall as [Hx Hall].
    simpl. rewrite (IH Hn Hall). destruct x as [x|]; [|done]. simpl. destruct Hx as [_ ->]. done.
Qed.

Lemma good_map_canon (m : gomap (option pval)) :
  Forall (λ kv, opt_all good kv.2) m → map (λ kv, (kv.1, option_map canon kv.2)) m = m.
Proof.
  induction 1 as [|[k x] m Hx Hm IH]; [done|]. simpl. rewrite IH.
  destruct x as [x|]; [|done]. simpl. destruct Hx as [_ ->]. done.
Qed.

Lemma good_obj m u : good_fields m → unrec_ok known_one u →
  wf_obj (mkPObj m u) ∧ canon_obj (mkPObj m u) = mkPObj m u.
Proof.
  intros [Hs Hall] Hu. split.
  - split; [split; [by apply msorted_NoDup|done]|]. simpl.
    eapply Forall_impl; [exact Hall|]. intros [? [x|]]; [intros [? _]; done|done].
  - unfold canon_obj. simpl. rewrite good_map_canon by done. by rewrite mof_list_sorted.
Qed.

Lemma good_obj_kind m u : good_fields m → unrec_ok known_one u → good_kind (KObject (Some (mkPObj m u))).
Proof.
  intros Hm Hu u' Hu'. destruct (good_obj m u Hm Hu) as [[H1 H2] H3]. split.
  - simpl. split_and!; try done. by apply list_each_Forall.
  - simpl. unfold canon_obj in H3. simpl in H3. by rewrite H3.
Qed.

Lemma Forall_mset {A} (P : string * A → Prop) k v (m : gomap A) :
  P (k, v) → Forall P m → Forall P (mset k v m).
Proof.
  intros Hp. induction m as [|[k' v'] m IH]; intros Hm; simpl; [by constructor|].
  apply Forall_cons in Hm as [? ?]. destruct (String.compare k k'); repeat constructor; auto.
Qed.

Lemma good_mset k x m : opt_all good x → good_fields m → good_fields (mset k x m).
Proof. intros Hx [Hs Hm]. split; [by apply msorted_mset|by apply Forall_mset]. Qed.

Lemma le_value_range d : 0 ≤ le_value d < 256 ^ len d.
Proof.
  induction d as [|b d IH]; cbn [le_value]; [rewrite len_nil; lia|].
  rewrite len_cons, Z.pow_add_r by (lia || apply len_nonneg). pose proof (bval_range b). lia.
Qed.

Ltac out_step :=
  match goal with
  | H : rbind (read_head ?d ?i) _ = ROk _ |- _ =>
      let Hh := fresh "Hh" in let E := fresh "Eh" in
      pose proof (read_head_safe d i ltac:(lia)) as Hh;
      destruct (read_head d i) as [[[? ?] ?]| |] eqn:E; cbn [rbind] in H; [destruct Hh as [Hh ?]|discriminate H|discriminate H]
  | H : rbind (read_varint ?d ?i) _ = ROk _ |- _ =>
      let Hh := fresh "Hv" in
      pose proof (read_varint_safe d i ltac:(lia)) as Hh;
      destruct (read_varint d i) as [[? ?]| |]; cbn [rbind] in H; [destruct Hh as [Hh ?]|discriminate H|discriminate H]
  | H : rbind (read_len ?d ?i) _ = ROk _ |- _ =>
      let Hh := fresh "Hl" in
      pose proof (read_len_safe d i ltac:(assumption) ltac:(lia)) as Hh;
      destruct (read_len d i) as [[? ?]| |]; cbn [rbind] in H; [|discriminate H|discriminate H]
  | H : rbind (read_unknown ?d ?i ?l) _ = ROk _ |- _ =>
      let Hh := fresh "Hu" in let E := fresh "Eu" in
      pose proof (read_unknown_safe d i l ltac:(assumption) ltac:(lia) ltac:(lia)) as Hh;
      destruct (read_unknown d i l) as [[? ?]| |] eqn:E; cbn [rbind] in H; [|discriminate H|discriminate H]
  | H : rbind (slice ?d ?a ?b) _ = ROk _ |- _ =>
      let s := fresh "s" in let H1 := fresh "Hs" in let H2 := fresh "Hsl" in
      destruct (slice_safe d a b) as (s & H1 & H2 & _); [lia|lia|]; rewrite H1 in H; cbn [rbind] in H;
      assert (fits s) by (unfold fits in *; lia)
  | H : (if negb ?b then _ else _) = ROk _ |- _ => destruct b; cbn [negb] in H; [|discriminate H]
  | H : context [ (?a >? ?b)%Z ] |- _ => rewrite (Z.gtb_ltb a b) in H
  | H : (if (?a <? ?b)%Z then _ else _) = ROk _ |- _ => destruct (Z.ltb_spec a b)
  | H : (if (?a =? ?b)%Z then _ else _) = ROk _ |- _ => destruct (Z.eqb_spec a b)
  end.

Lemma um_good f :
  (∀ d i k u v, fits d → 0 ≤ i ≤ len d → good_kind k → unrec_ok known_value u →
     um_value f d i k u = ROk v → good v) ∧
  (∀ d i l u a, fits d → 0 ≤ i ≤ len d →
     Forall (λ x, x ≠ None) l → Forall (opt_all good) l → unrec_ok known_one u →
     um_array f d i l u = ROk a → good_kind (KArray (Some a))) ∧
  (∀ d i l u o, fits d → 0 ≤ i ≤ len d → good_fields l → unrec_ok known_one u →
     um_object f d i l u = ROk o → good_fields (po_fields o) ∧ unrec_ok known_one (po_unrec o)) ∧
  (∀ d i p k x r, fits d → 0 ≤ i ≤ len d → p ≤ len d → opt_all good x →
     um_entry f d i p k x = ROk r → opt_all good r.2).
Proof.
  induction f as [|f (IHv & IHa & IHo & IHe)].
  { split_and!; intros; done. }
  assert (∀ (k : pkind pval), (∀ u, good (PVal k u) ↔ unrec_ok known_value u ∧ wf_kind_shape k ∧ kind_each wf_value k ∧ canon (PVal k u) = PVal k u)) as Hgood.
  { intros k u. unfold good. simpl. tauto. }
  split_and!.
  - intros d i k u v Hd Hi Hk Hu H. cbn [um_value] in H.
    assert (∀ s0, fits s0 → 0 ≤ 0 ≤ len s0) as H0 by (intros s0 _; pose proof (len_nonneg s0); lia).
    repeat out_step; try discriminate H.
    + eapply IHv; [exact Hd| | |exact Hu|exact H]; [lia|].
      intros u' Hu'. apply Hgood. split_and!; try done. apply s32_range.
    + destruct um_array as [x| |] eqn:Ea; cbn [rbind] in H; try discriminate H.
      eapply IHv; [exact Hd| | |exact Hu|exact H]; [lia|].
      eapply IHa; [| | | | |exact Ea]; [done|auto|constructor|constructor|constructor].
    + eapply IHv; [exact Hd| | |exact Hu|exact H]; [lia|].
      intros u' Hu'. apply Hgood. split_and!; done.
    + eapply IHv; [exact Hd| | |exact Hu|exact H]; [lia|].
      intros u' Hu'. apply Hgood. split_and!; try done.
      simpl. pose proof (le_value_range s) as Hle. replace (len s) with 8 in Hle by lia. exact Hle.
    + eapply IHv; [exact Hd| | |exact Hu|exact H]; [lia|].
      intros u' Hu'. apply Hgood. split_and!; try done. apply s64_range.
    + destruct um_object as [x| |] eqn:Ea; cbn [rbind] in H; try discriminate H.
      eapply IHv; [exact Hd| | |exact Hu|exact H]; [lia|].
      destruct (IHo s 0 [] [] x) as [Hm Hux]; [done|auto|split; [done|constructor]|constructor|done|].
      destruct x as [m ux]. by apply good_obj_kind.
    + eapply IHv; [exact Hd| | |exact Hu|exact H]; [lia|].
      intros u' Hu'. apply Hgood. split_and!; done.
    + eapply IHv; [exact Hd| | |exact Hu|exact H]; [lia|].
      intros u' Hu'. apply Hgood. split_and!; try done. apply s64_range.
    + eapply IHv; [exact Hd| | |exact Hu|exact H]; [lia|].
      intros u' Hu'. apply Hgood. split_and!; done.
    + eapply IHv; [exact Hd| |exact Hk| |exact H]; [lia|].
      apply unrec_app; [done|]. rewrite <- (app_nil_r b). constructor; [|constructor].
      eapply read_unknown_chunk; [exact Hd| | |exact Eh| |exact Eu]; [lia|lia|].
      unfold known_value. destruct (Z.leb_spec 1 z); [|done]. destruct (Z.leb_spec z 9); [lia|done].
    + simplify_eq. by apply Hk.
  - intros d i l u a Hd Hi Hn Hall Hu H. cbn [um_array] in H.
    repeat out_step; try discriminate H.
    + destruct um_value as [x| |] eqn:Ea; cbn [rbind] in H; try discriminate H.
      assert (good x) as Hx.
      { eapply IHv; [| | | |exact Ea]; [done|pose proof (len_nonneg s); lia| |constructor].
        intros u' Hu'. apply Hgood. split_and!; done. }
      eapply IHa; [exact Hd| | | |exact Hu|exact H]; [lia| |].
      * apply Forall_app. split; [done|]. by repeat constructor.
      * apply Forall_app. split; [done|]. apply Forall_singleton. done.
    + eapply IHa; [exact Hd| |exact Hn|exact Hall| |exact H]; [lia|].
      apply unrec_app; [done|]. rewrite <- (app_nil_r b). constructor; [|constructor].
      eapply read_unknown_chunk; [exact Hd| | |exact Eh| |exact Eu]; [lia|lia|].
      unfold known_one. by apply Z.eqb_neq.
    + simplify_eq. by apply good_arr.
  - intros d i l u o Hd Hi Hl0 Hu H. cbn [um_object] in H.
    repeat out_step; try discriminate H.
    + destruct um_entry as [[key x]| |] eqn:Ea; cbn [rbind] in H; try discriminate H.
      assert (opt_all good x) as Hx.
      { eapply (IHe d z2 z3 "" None (key, x)); [done|lia|lia|done|done]. }
      eapply IHo; [exact Hd| | |exact Hu|exact H]; [lia|]. by apply good_mset.
    + eapply IHo; [exact Hd| |exact Hl0| |exact H]; [lia|].
      apply unrec_app; [done|]. rewrite <- (app_nil_r b). constructor; [|constructor].
      eapply read_unknown_chunk; [exact Hd| | |exact Eh| |exact Eu]; [lia|lia|].
      unfold known_one. by apply Z.eqb_neq.
    + simplify_eq. done.
  - intros d i p k x r Hd Hi Hp Hx H. cbn [um_entry] in H.
    repeat out_step; try discriminate H.
    + eapply IHe; [exact Hd| |exact Hp|exact Hx|exact H]. lia.
    + destruct um_value as [y| |] eqn:Ea; cbn [rbind] in H; try discriminate H.
      eapply IHe; [exact Hd| |exact Hp| |exact H]; [lia|]. simpl.
      eapply IHv; [| | | |exact Ea]; [done|pose proof (len_nonneg s); lia| |constructor].
      intros u' Hu'. apply Hgood. split_and!; done.
    + eapply IHe; [exact Hd| |exact Hp|exact Hx|exact H]. lia.
    + simplify_eq. done.
Qed.

Definition good_obj' (o : pobj pval) : Prop := good_fields (po_fields o) ∧ unrec_ok known_one (po_unrec o).

Lemma um_log_good f d i o u l :
  fits d → 0 ≤ i ≤ len d → opt_all good_obj' o → unrec_ok known_one u →
  um_log f d i o u = ROk l → opt_all good_obj' (lg_object l) ∧ unrec_ok known_one (lg_unrec l).
Proof.
  intros Hd. revert i o u. induction f as [|f IH]; intros i o u Hi Ho Hu H; [done|].
  cbn [um_log] in H. repeat out_step; try discriminate H.
  - destruct um_object as [x| |] eqn:Ea; cbn [rbind] in H; try discriminate H.
    eapply (IH _ _ _ _ _ Hu H).
    Unshelve. lia. simpl.
    eapply (proj1 (proj2 (proj2 (um_good _)))); [| | | |exact Ea]; [done|pose proof (len_nonneg s); lia| |].
    + destruct o as [x0|]; [apply Ho|split; [done|constructor]].
    + destruct o as [x0|]; [apply Ho|constructor].
  - eapply (IH _ _ _ _ Ho _ H).
    Unshelve. lia.
    apply unrec_app; [done|]. rewrite <- (app_nil_r b). constructor; [|constructor].
    eapply read_unknown_chunk; [exact Hd| | |exact Eh| |exact Eu]; [lia|lia|].
    unfold known_one. by apply Z.eqb_neq.
  - simplify_eq. done.
Qed.

Lemma good_log l : opt_all good_obj' (lg_object l) ∧ unrec_ok known_one (lg_unrec l) →
  wf_log l ∧ canon_log l = l.
Proof.
  destruct l as [[[m ux]|] u]; simpl; intros [Ho Hu].
  - destruct Ho as [Hm Hx]. simpl in *. destruct (good_obj m ux Hm Hx) as [H1 H2]. split; [done|].
    unfold canon_log. simpl. by rewrite H2.
  - done.
Qed.

Lemma um_wrapper_good f d i m u w :
  fits d → 0 ≤ i ≤ len d →
  match m with None => True | Some None => False | Some (Some l) => wf_log l ∧ canon_log l = l end →
  unrec_ok known_one u →
  um_wrapper f d i m u = ROk w → wf_wrapper w ∧ canon_wrapper w = w.
Proof.
  intros Hd. revert i m u. induction f as [|f IH]; intros i m u Hi Ho Hu H; [done|].
  cbn [um_wrapper] in H. repeat out_step; try discriminate H.
  - destruct um_log as [x| |] eqn:Ea; cbn [rbind] in H; try discriminate H.
    eapply (IH _ _ _ _ _ Hu H).
    Unshelve. lia. simpl. apply good_log.
    eapply um_log_good; [| | | |exact Ea]; [done|pose proof (len_nonneg s); lia|done|constructor].
  - eapply (IH _ _ _ _ Ho _ H).
    Unshelve. lia.
    apply unrec_app; [done|]. rewrite <- (app_nil_r b). constructor; [|constructor].
    eapply read_unknown_chunk; [exact Hd| | |exact Eh| |exact Eu]; [lia|lia|].
    unfold known_one. by apply Z.eqb_neq.
  - simplify_eq. destruct m as [[l|]|]; [|done|done].
    destruct Ho as [G1 G2]. split; [done|]. unfold canon_wrapper. simpl. by rewrite G2.
Qed.

Lemma Unmarshal_good d m : fits d → Unmarshal d = ROk m → wf_wrapper m ∧ canon_wrapper m = m.
Proof.
  intros Hd H. eapply um_wrapper_good; [exact Hd| | | |exact H]; [pose proof (len_nonneg d); lia|done|constructor].
Qed.

Lemma wf_wrapper_nil_free m : wf_wrapper m → nil_free_wrapper m.
Proof.
  destruct m as [[[[[o|] u2]|]|] u]; intros [H _]; try done.
  destruct H as [[_ Ho] _]. unfold nil_free_wrapper. simpl. unfold nil_free_log. simpl. unfold nil_free_obj.
  eapply obj_all_impl; [|exact Ho]. apply wf_nil_free.
Qed.

(** ** When Marshal panics *)
Lemma sub_write_panic f d a b : (∀ s, f s = Panic) → sub_write d a b f = Panic.
Proof. intros H. unfold sub_write. destruct (_ && _); [|done]. by rewrite H. Qed.
Lemma put_msg_panic d i tg f : (∀ s, f s = Panic) → put_msg d i tg f = Panic.
Proof. intros H. unfold put_msg. by rewrite sub_write_panic. Qed.
Lemma put_sized_panic d i n f : (∀ s, f s = Panic) → put_sized d i n f = Panic.
Proof.
  intros H. unfold put_sized. rewrite sub_write_panic; [done|].
  intros s. by apply sub_write_panic.
Qed.

Lemma put_items_panic items d i :
  (∃ x, x ∈ items ∧ ∀ s, msb_opt msb_value x s = Panic) → put_items msb_value items d i = Panic.
Proof.
  induction items as [|y items IH]; intros (x & Hin & Hp); [by apply elem_of_nil in Hin|].
  apply elem_of_cons in Hin as [->|Hin]; cbn [put_items].
  - destruct put_items as [[d1 i1]|]; [|done]. by apply put_msg_panic.
  - rewrite IH; [done|eauto].
Qed.
Lemma put_fields_panic fields d i :
  (∃ (kv : string * option pval) v, kv ∈ fields ∧ kv.2 = Some v ∧ ∀ s, msb_value v s = Panic) → put_fields msb_value fields d i = Panic.
Proof.
  revert d i. induction fields as [|y fields IH]; intros d i (kv & v & Hin & Hv & Hp); [by apply elem_of_nil in Hin|].
  apply elem_of_cons in Hin as [->|Hin]; cbn [put_fields].
  - unfold put_entry. rewrite Hv. by rewrite put_msg_panic.
  - destruct put_entry as [[d1 i1]|]; [|done]. apply IH. eauto 10.
Qed.

Lemma fields_cases fields :
  Forall (λ kv, opt_all (λ v, nil_free v ∨ ∀ d, msb_value v d = Panic) kv.2) fields →
  Forall (λ kv, opt_all nil_free kv.2) fields ∨
  ∃ (kv : string * option pval) v, kv ∈ fields ∧ kv.2 = Some v ∧ ∀ s, msb_value v s = Panic.
Proof.
  induction 1 as [|[k x] fields Hx Hall IH]; [left; constructor|].
  destruct x as [v|]; simpl in Hx.
  - destruct Hx as [Hx|Hx].
    + destruct IH as [IH|(kv & w & ? & ? & ?)]; [left; by constructor|right].
      exists kv, w. split; [by apply elem_of_list_further|done].
    + right. exists (k, Some v), v. split; [apply elem_of_list_here|done].
  - destruct IH as [IH|(kv & w & ? & ? & ?)]; [left; by constructor|right].
    exists kv, w. split; [by apply elem_of_list_further|done].
Qed.

Lemma nil_free_or_panic v : nil_free v ∨ ∀ d, msb_value v d = Panic.
Proof.
  induction v as [k u IH] using pval_ind'. rewrite nil_free_inv.
  assert ((∀ d, msb_kind msb_value k d = Panic) → k ≠ KNil → ∀ d, msb_value (PVal k u) d = Panic) as Hp.
  { intros Hk Hne d. cbn [msb_value]. destruct put_bytes as [[d1 i1]|]; [|done].
    destruct k; try done; by rewrite put_sized_panic. }
  destruct k as [|z|[[items ua]|]|b|v|z|[[fields uo]|]|[s|]|z|z]; simpl in *; try (left; done).
  - assert (no_nil items ∧ Forall (opt_all nil_free) items ∨
        ∃ x, x ∈ items ∧ ∀ s, msb_opt msb_value x s = Panic) as [H|H].
    { clear Hp. unfold no_nil. induction items as [|x items IHi]; [left; split; constructor|].
      apply Forall_cons in IH as [Hx IH]. specialize (IHi IH).
      destruct x as [v|]; simpl in Hx.
      2:{ right. exists None. split; [apply elem_of_list_here|done]. }
      destruct Hx as [Hx|Hx].
      2:{ right. exists (Some v). split; [apply elem_of_list_here|done]. }
      destruct IHi as [[H1 H2]|(x & ? & ?)].
      - left. split; by constructor.
      - right. exists x. split; [by apply elem_of_list_further|done]. }
    + by left.
    + right. apply Hp; [|done]. intros d. unfold msb_kind. cbn [msb_arr].
      rewrite put_msg_panic; [done|]. intros s. unfold msb_arr.
      destruct put_bytes as [[d1 i1]|]; [|done]. by rewrite put_items_panic.
  - destruct (fields_cases fields IH) as [H|H].
    + by left.
    + right. apply Hp; [|done]. intros d. unfold msb_kind.
      rewrite put_msg_panic; [done|]. intros s. unfold msb_obj.
      destruct put_bytes as [[d1 i1]|]; [|done]. by rewrite put_fields_panic.
Qed.

Lemma msb_obj_cases o : nil_free_obj o ∨ ∀ d, msb_obj msb_value o d = Panic.
Proof.
  destruct o as [fields u]. unfold nil_free_obj. simpl.
  destruct (fields_cases fields) as [H|H].
  { apply Forall_forall. intros [k [v|]] _; [apply nil_free_or_panic|done]. }
  - by left.
  - right. intros d. destruct put_bytes as [[d1 i1]|]; [|done]. by rewrite put_fields_panic.
Qed.

Lemma marshal_cases m : nil_free_wrapper m ∨ Marshal m = Panic.
Proof.
  destruct m as [[[[[o|] u2]|]|] u]; try (left; done).
  destruct (msb_obj_cases o) as [H|H]; [by left|right].
  unfold Marshal, marshal_with, msb_wrapper. cbn [mw_log mw_unrec].
  destruct put_bytes as [[d1 i1]|]; [|done].
  rewrite put_sized_panic; [done|]. intros s. unfold msb_wrapper_log.
  rewrite put_msg_panic; [done|]. intros s'. unfold msb_log. cbn [lg_object lg_unrec].
  destruct put_bytes as [[d2 i2]|]; [|done]. by rewrite put_msg_panic.
Qed.

Lemma Marshal_panic_iff m : Marshal m = Panic ↔ ¬ nil_free_wrapper m.
Proof.
  split.
  - intros H Hn. rewrite Marshal_ok in H by done. done.
  - intros H. by destruct (marshal_cases m).
Qed.
