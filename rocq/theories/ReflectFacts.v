(** * Proofs about ReflectValue. *)
From Verif Require Export Reflect.
Local Open Scope Z_scope.

Section gval_ind.
  Variable P : gval → Prop.
  Hypothesis HBool : ∀ d b, P (GBool d b).
  Hypothesis HInt : ∀ d z, P (GInt d z).
  Hypothesis HUint : ∀ d z, P (GUint d z).
  Hypothesis HUintptr : ∀ d z, P (GUintptr d z).
  Hypothesis HFloat : ∀ d z, P (GFloat d z).
  Hypothesis HString : ∀ d s, P (GString d s).
  Hypothesis HTime : ∀ d z, P (GTime d z).
  Hypothesis HSlice : ∀ d l, Forall P l → P (GSlice d l).
  Hypothesis HMap : ∀ d l, Forall (λ kv, P kv.2) l → P (GMap d l).
  Hypothesis HPtr0 : ∀ d, P (GPtr d None).
  Hypothesis HPtr : ∀ d x, P x → P (GPtr d (Some x)).
  Hypothesis HIface0 : ∀ d, P (GIface d None).
  Hypothesis HIface : ∀ d x, P x → P (GIface d (Some x)).
  Hypothesis HStruct : ∀ d l, Forall (λ fv, P fv.2) l → P (GStruct d l).
  Hypothesis HOther : ∀ d, P (GOther d).
  Fixpoint gval_ind' (v : gval) : P v :=
    match v with
    | GBool d b => HBool d b
    | GInt d z => HInt d z
    | GUint d z => HUint d z
    | GUintptr d z => HUintptr d z
    | GFloat d z => HFloat d z
    | GString d s => HString d s
    | GTime d z => HTime d z
    | GSlice d l => HSlice d l ((fix go (l : list gval) : Forall P l :=
          match l with [] => Forall_nil_2 P | x :: l' => Forall_cons_2 P x l' (gval_ind' x) (go l') end) l)
    | GMap d l => HMap d l ((fix go (l : list (string * gval)) : Forall (λ kv, P kv.2) l :=
          match l with [] => Forall_nil_2 _ | (k, x) :: l' => Forall_cons_2 _ (k, x) l' (gval_ind' x) (go l') end) l)
    | GPtr d None => HPtr0 d
    | GPtr d (Some x) => HPtr d x (gval_ind' x)
    | GIface d None => HIface0 d
    | GIface d (Some x) => HIface d x (gval_ind' x)
    | GStruct d l => HStruct d l ((fix go (l : list (finfo * gval)) : Forall (λ fv, P fv.2) l :=
          match l with [] => Forall_nil_2 _ | (k, x) :: l' => Forall_cons_2 _ (k, x) l' (gval_ind' x) (go l') end) l)
    | GOther d => HOther d
    end.
End gval_ind.

(** ** Tags *)
Lemma split_comma_spec s : no_comma (split_comma s).1 ∧ Forall no_comma (split_comma s).2 ∧
  s = String.concat "," ((split_comma s).1 :: (split_comma s).2).
Proof.
  induction s as [|c s (IH1 & IH2 & IH3)].
  - cbn. split_and!; [|constructor|done]. unfold no_comma. simpl. apply not_elem_of_nil.
  - cbn [split_comma]. destruct (split_comma s) as [h t]. simpl in IH1, IH2.
    destruct (Ascii.eqb_spec c ","%char) as [->|Hc]; cbn [fst snd] in *.
    + split_and!; [unfold no_comma; simpl; apply not_elem_of_nil|by constructor|].
      rewrite IH3. done.
    + split_and!; [|done|].
      * unfold no_comma in *. simpl. apply not_elem_of_cons. split; congruence.
      * rewrite IH3. destruct t; done.
Qed.
Lemma concat_comma_inj n o : no_comma n → Forall no_comma o → split_comma (String.concat "," (n :: o)) = (n, o).
Proof.
  revert n. induction o as [|o1 o IHo]; intros n Hn Ho.
  - change (String.concat "," [n]) with n. clear Ho. induction n as [|c n IH]; [done|]. cbn [split_comma].
    unfold no_comma in *. simpl in Hn. apply not_elem_of_cons in Hn as [Hc Hn]. rewrite IH by done.
    destruct (Ascii.eqb_spec c ","%char); [by subst|done].
  - apply Forall_cons in Ho as [Ho1 Ho].
    change (String.concat "," (n :: o1 :: o)) with (n +:+ "," +:+ String.concat "," (o1 :: o)).
    specialize (IHo o1 Ho1 Ho). remember (String.concat "," (o1 :: o)) as rest. clear Heqrest.
    induction n as [|c n IH].
    + cbn. rewrite IHo. done.
    + unfold no_comma in *. simpl in Hn. apply not_elem_of_cons in Hn as [Hc Hn]. specialize (IH Hn).
      change (split_comma (String c (n +:+ "," +:+ rest)) = (String c n, o1 :: o)). cbn [split_comma]. rewrite IH.
      destruct (Ascii.eqb_spec c ","%char); [by subst|done].
Qed.
Lemma parseTag_spec tag n o : parseTag tag = (n, o) ↔ tag_reads tag n o.
Proof.
  unfold parseTag, tag_reads. split.
  - intros H. pose proof (split_comma_spec tag) as Hs. by rewrite H in Hs.
  - intros (Hn & Ho & ->). by apply concat_comma_inj.
Qed.
Lemma Has_spec opts o : Has opts o = true ↔ o ∈ opts.
Proof.
  induction opts as [|x opts IH]; simpl.
  - split; [done|]. intros H. by apply elem_of_nil in H.
  - rewrite elem_of_cons, <- IH. destruct (String.eqb_spec x o) as [->|Hn]; [by split; auto|].
    split; [by right|]. intros [->|H]; done.
Qed.
Lemma tag_option_spec f o : tag_option f o ↔ Has (parseTag (f_tag f)).2 o = true.
Proof.
  unfold tag_option. rewrite Has_spec. destruct (parseTag (f_tag f)) as [n os] eqn:E.
  pose proof (proj1 (parseTag_spec _ _ _) E) as Hr. split.
  - intros (n' & os' & H & Hin). apply parseTag_spec in H. simpl. congruence.
  - simpl. eauto.
Qed.
Lemma left_out_spec f : left_out f ↔
  negb (considered f) || (Has (parseTag (f_tag f)).2 "omitempty" && f_zero f) = true.
Proof.
  unfold left_out, considered. rewrite tag_option_spec, orb_true_iff, andb_true_iff, negb_true_iff, andb_false_iff, negb_false_iff.
  rewrite String.eqb_eq. tauto.
Qed.
Lemma field_name_spec lower f n : field_name lower f n ↔
  n = if negb (String.eqb (parseTag (f_tag f)).1 "") then (parseTag (f_tag f)).1 else lower (f_name f).
Proof.
  unfold field_name. destruct (parseTag (f_tag f)) as [nm os] eqn:E. simpl.
  pose proof (proj1 (parseTag_spec _ _ _) E) as Hr. split.
  - intros (n' & os' & H & ->). apply parseTag_spec in H. assert (n' = nm) as -> by congruence.
    by destruct (String.eqb nm "").
  - intros ->. exists nm, os. split; [done|]. by destruct (String.eqb nm "").
Qed.

(** ** Parts *)
Lemma go_value_here v : go_value v → go_rules_here v.
Proof. intros H. apply H. constructor. Qed.
Lemma part_trans x y z : part x y → part y z → part x z.
Proof. intros H1 H2. induction H2; try done; econstructor; eauto. Qed.
Lemma go_value_part x v : part x v → go_value v → go_value x.
Proof. intros Hp H y Hy. apply H. by eapply part_trans. Qed.
Lemma calm_part x v : part x v → calm v → calm x.
Proof. intros Hp H y Hy. apply H. by eapply part_trans. Qed.
Lemma calm_here v : calm v → t_err (gdesc v) ≠ Some Panic ∧ t_str (gdesc v) ≠ Some Panic.
Proof. intros H. apply H. constructor. Qed.

(** ** rmapM *)
Lemma rmapM_cases {A B} (f : A → rres B) l :
  match rmapM f l with
  | RVal ys => Forall2 (λ x y, f x = RVal y) l ys
  | RErr e => ∃ x, x ∈ l ∧ f x = RErr e
  | RPanic => ∃ x, x ∈ l ∧ f x = RPanic
  end.
Proof.
  induction l as [|x l IH]; simpl; [constructor|].
  destruct (f x) as [y|e|] eqn:E; simpl.
  - destruct (rmapM f l) as [ys|e|]; simpl.
    + by constructor.
    + destruct IH as (z & ? & ?). exists z. split; [by apply elem_of_list_further|done].
    + destruct IH as (z & ? & ?). exists z. split; [by apply elem_of_list_further|done].
  - exists x. split; [apply elem_of_list_here|done].
  - exists x. split; [apply elem_of_list_here|done].
Qed.
Lemma rmapM_Forall2 {A B} (f : A → rres B) l ys : rmapM f l = RVal ys ↔ Forall2 (λ x y, f x = RVal y) l ys.
Proof.
  split; [intros H; pose proof (rmapM_cases f l) as Hc; by rewrite H in Hc|].
  induction 1 as [|x y l ys Hx _ IH]; [done|]. simpl. by rewrite Hx, IH.
Qed.

(** ** What conv does *)
Definition sound (lower : string → string) (ifc : bool) (v : gval) (r : rres tree) : Prop :=
  match r with
  | RVal t => mirrors lower ifc v t ∧ ¬ unsupported ifc v
  | RErr _ => unsupported ifc v
  | RPanic => False
  end.

Lemma struct_loop_sound lower fs : Forall (λ fv, sound lower false fv.2 (conv lower false fv.2)) fs →
  Forall (λ fv : finfo * gval, stringer fv.2 ≠ Some Panic) fs → ∀ obj,
  match struct_loop lower (conv lower) fs obj with
  | RVal m => ∃ l, shown lower fs l ∧ m = fold_left (λ m kv, mset kv.1 kv.2 m) l obj ∧
                   ∀ f x, (f, x) ∈ fs → ¬ left_out f → ¬ unsupported false x
  | RErr _ => ∃ f x, (f, x) ∈ fs ∧ ¬ left_out f ∧ unsupported false x
  | RPanic => False
  end.
Proof.
  induction fs as [|[f v] fs IH]; intros Hall Hstr obj; cbn [struct_loop].
  - exists []. split_and!; [constructor|done|]. intros f x H. by apply elem_of_nil in H.
  - apply Forall_cons in Hall as [Hv Hall]. apply Forall_cons in Hstr as [Hs Hstr]. cbn [snd] in *.
    specialize (IH Hall Hstr). pose proof (left_out_spec f) as Hlo. pose proof (field_name_spec lower f) as Hfn.
    pose proof (tag_option_spec f "string") as Hto.
    destruct (considered f); cbn [negb orb] in *.
    2: { specialize (IH obj). destruct (struct_loop lower (conv lower) fs obj) as [m|e|].
         - destruct IH as (l & Hl & -> & Hn). exists l. split_and!; [apply sh_out; [by apply Hlo|done]|done|].
           intros g x [Hx|Hx]%elem_of_cons; [|by eauto]. simplify_eq. intros Hno. exfalso. apply Hno, Hlo. done.
         - destruct IH as (g & x & ? & ? & ?). exists g, x. split_and!; [by apply elem_of_list_further|done|done].
         - done. }
    destruct (parseTag (f_tag f)) as [tag opts]. cbn [fst snd] in *.
    set (name := if negb (String.eqb tag "") then tag else lower (f_name f)) in *.
    destruct (Has opts "omitempty" && f_zero f).
    { specialize (IH obj). destruct (struct_loop lower (conv lower) fs obj) as [m|e|].
      - destruct IH as (l & Hl & -> & Hn). exists l. split_and!; [apply sh_out; [by apply Hlo|done]|done|].
        intros g x [Hx|Hx]%elem_of_cons; [|by eauto]. simplify_eq. intros Hno. exfalso. apply Hno, Hlo. done.
      - destruct IH as (g & x & ? & ? & ?). exists g, x. split_and!; [by apply elem_of_list_further|done|done].
      - done. }
    assert (¬ left_out f) as Hin by (rewrite Hlo; done).
    destruct (conv lower false v) as [t|e|]; cbn [rbind sound] in *; [|exists f, v; split_and!; [apply elem_of_list_here|done|done]|done].
    destruct Hv as [Hm Hnu].
    assert (∀ obj' l1, (∀ l, shown lower fs l → shown lower ((f, v) :: fs) (l1 ++ l)) →
              obj' = fold_left (λ m kv, mset kv.1 kv.2 m) l1 obj →
              match struct_loop lower (conv lower) fs obj' with
              | RVal m => ∃ l, shown lower ((f, v) :: fs) l ∧ m = fold_left (λ m kv, mset kv.1 kv.2 m) l obj ∧
                   ∀ f' x, (f', x) ∈ (f, v) :: fs → ¬ left_out f' → ¬ unsupported false x
              | RErr _ => ∃ f' x, (f', x) ∈ (f, v) :: fs ∧ ¬ left_out f' ∧ unsupported false x
              | RPanic => False
              end) as Hgo.
    { intros obj' l1 Hsh ->. specialize (IH (fold_left (λ m kv, mset kv.1 kv.2 m) l1 obj)).
      destruct (struct_loop lower (conv lower) fs _) as [m|e|].
      - destruct IH as (l & Hl & -> & Hn). exists (l1 ++ l). split_and!; [by apply Hsh|by rewrite fold_left_app|].
        intros g x [Hx|Hx]%elem_of_cons; [by simplify_eq|by eauto].
      - destruct IH as (g & x & ? & ? & ?). exists g, x. split_and!; [by apply elem_of_list_further|done|done].
      - done. }
    destruct (Has opts "string").
    + destruct (stringer v) as [[s|]|] eqn:Es; [|done|].
      * apply (Hgo _ [(name, TStr s)]); [|done]. intros l Hl. simpl. apply sh_string; try done; [by apply Hto|by apply Hfn].
      * apply (Hgo _ []); [|done]. intros l Hl. simpl. apply sh_no_string; try done. by apply Hto.
    + apply (Hgo _ [(name, t)]); [|done]. intros l Hl. simpl. apply sh_field; try done; [|by apply Hfn].
      rewrite Hto. done.
Qed.

Lemma conv_sound lower v : go_value v → calm v → ∀ ifc, sound lower ifc v (conv lower ifc v).
Proof.
  induction v as [d b|d z|d z|d z|d z|d s|d z|d l IH|d l IH|d|d x IH|d|d x IH|d l IH|d] using gval_ind';
    intros Hg Hc ifc; pose proof (go_value_here _ Hg) as [Hex Hif]; pose proof (calm_here _ Hc) as [Hce Hcs];
    cbn [gdesc] in *.
  Local Ltac errs d Hce :=
    destruct (t_err d) as [[?|]|] eqn:?; [|done|].
  Local Ltac no_un := intros Hun; inversion Hun; subst; congruence.
  Local Ltac scalar d ifc Hex :=
    cbn [conv]; unfold by_kind; cbn [gdesc];
    destruct ifc; [destruct (t_exact d); [rewrite Hex by done; split; [by constructor; apply Hex|intros Hun; inversion Hun]|]|];
    destruct (t_err d) as [[?|]|] eqn:?; try done;
    (split; [first [by apply mi_err|by constructor]|intros Hun; inversion Hun]).
  Local Ltac fin := split; [first [by apply mi_err|by constructor; auto]|intros Hun; inversion Hun; subst; congruence].
  1-3,5-7: cbn [conv]; unfold by_kind; cbn [gdesc];
    destruct ifc; [destruct (t_exact d); [fin|]|]; (destruct (t_err d) as [[?|]|] eqn:?; [fin|done|fin]).
  - (* uintptr *)
    cbn [conv]; unfold by_kind; cbn [gdesc].
    destruct ifc; [destruct (t_exact d) eqn:Ee|].
    + split; [constructor; auto|]. intros Hun; inversion Hun; subst. rewrite Ee in *. done.
    + destruct (t_err d) as [[?|]|] eqn:?; [fin|done|]. apply un_uintptr; [done|by rewrite Ee].
    + destruct (t_err d) as [[?|]|] eqn:?; [fin|done|]. by apply un_uintptr.
  - (* slice *)
    assert (conv lower ifc (GSlice d l) = by_kind lower (conv lower) (GSlice d l)) as -> by (by destruct ifc).
    unfold by_kind; cbn [gdesc]. destruct (t_err d) as [[?|]|] eqn:He; [fin|done|].
    assert (∀ x, x ∈ l → ∀ ifc, sound lower ifc x (conv lower ifc x)) as HIH.
    { intros x Hx. rewrite Forall_forall in IH. apply IH; [done| |].
      - eapply go_value_part; [|exact Hg]. eapply part_slice; [done|constructor].
      - eapply calm_part; [|exact Hc]. eapply part_slice; [done|constructor]. }
    clear IH. pose proof (rmapM_cases (conv lower true) l) as Hm.
    destruct (rmapM (conv lower true) l) as [ts|e|]; cbn [rbind sound].
    + split.
      * apply mi_slice; [done|]. clear -Hm HIH. induction Hm as [|x t l ts Hx Hm IHm]; [constructor|].
        constructor.
        -- pose proof (HIH x ltac:(left) true) as Hs. rewrite Hx in Hs. apply Hs.
        -- apply IHm. intros y Hy. apply HIH. by right.
      * intros Hun; inversion Hun as [| | | | |ifc' d' items x _ Hx Hux| |]; subst.
        apply elem_of_list_lookup in Hx as (i & Hi). destruct (Forall2_lookup_l _ _ _ _ _ Hm Hi) as (t & _ & Ht).
        pose proof (HIH x ltac:(by apply elem_of_list_lookup_2 in Hi) true) as Hs. rewrite Ht in Hs. by apply Hs.
    + destruct Hm as (x & Hx & Hxe). pose proof (HIH x Hx true) as Hs. rewrite Hxe in Hs. by eapply un_slice.
    + destruct Hm as (x & Hx & Hxe). pose proof (HIH x Hx true) as Hs. by rewrite Hxe in Hs.
  - (* map *)
    assert (∀ k x, (k, x) ∈ l → ∀ ifc, sound lower ifc x (conv lower ifc x)) as HIH.
    { intros k x Hx. rewrite Forall_forall in IH. apply (IH (k, x)); [done| |].
      - eapply go_value_part; [|exact Hg]. eapply part_map; [done|constructor].
      - eapply calm_part; [|exact Hc]. eapply part_map; [done|constructor]. }
    clear IH.
    assert (∀ (F : string → string) (f : string * gval → rres (string * tree)),
      (∀ k x t, f (k, x) = RVal t → t.1 = F k ∧ conv lower true x = RVal t.2) →
      (∀ k x e, f (k, x) = RErr e → ∃ e', conv lower true x = RErr e') →
      (∀ k x, f (k, x) = RPanic → conv lower true x = RPanic) →
      (F = if ifc && t_exact d then EscapeKey else id) → t_err d = None →
      sound lower ifc (GMap d l) (rbind (rmapM f l) (λ l, RVal (TObj (mof_list l))))) as Hgen.
    { intros F f Hv Herr Hp HF He. pose proof (rmapM_cases f l) as Hm.
      destruct (rmapM f l) as [ts|e|]; cbn [rbind sound].
      - split.
        + apply mi_map; [done|]. clear -Hm HIH Hv HF. induction Hm as [|[k x] t l ts Hx Hm IHm]; [constructor|].
          constructor.
          * destruct (Hv _ _ _ Hx) as [Ht1 Ht2]. split; [rewrite Ht1, HF; by destruct (ifc && t_exact d)|].
            pose proof (HIH k x ltac:(left) true) as Hs. rewrite Ht2 in Hs. apply Hs.
          * apply IHm. intros k' y Hy. apply (HIH k'). by right.
        + intros Hun; inversion Hun as [| | | | | |ifc' d' kvs k x _ Hx Hux|]; subst.
          apply elem_of_list_lookup in Hx as (i & Hi). destruct (Forall2_lookup_l _ _ _ _ _ Hm Hi) as (t & _ & Ht).
          destruct (Hv _ _ _ Ht) as [_ Ht2].
          pose proof (HIH k x ltac:(by apply elem_of_list_lookup_2 in Hi) true) as Hs. rewrite Ht2 in Hs. by apply Hs.
      - destruct Hm as ([k x] & Hx & Hxe). destruct (Herr _ _ _ Hxe) as (e' & Hxe').
        pose proof (HIH k x Hx true) as Hs. rewrite Hxe' in Hs. by eapply un_map.
      - destruct Hm as ([k x] & Hx & Hxe). apply Hp in Hxe. pose proof (HIH k x Hx true) as Hs. by rewrite Hxe in Hs. }
    assert (ifc && t_exact d = false → sound lower ifc (GMap d l) (by_kind lower (conv lower) (GMap d l))) as Hk.
    { intros Hie. unfold by_kind; cbn [gdesc]. destruct (t_err d) as [[?|]|] eqn:He; [fin|done|].
      apply (Hgen id); [| | |by rewrite Hie|done]; cbn [snd fst]; intros k x.
      - intros t Ht. destruct (conv lower true x); simpl in Ht; simplify_eq. done.
      - intros e Ht. destruct (conv lower true x); simpl in Ht; simplify_eq. eauto.
      - intros Ht. destruct (conv lower true x); simpl in Ht; simplify_eq. done. }
    destruct ifc; cbn [conv]; [|by apply Hk].
    destruct (t_exact d) eqn:Ee; [|by apply Hk].
    apply (Hgen EscapeKey); [| | |done|by apply Hex]; cbn [snd fst]; intros k x.
    + intros t Ht. destruct (conv lower true x); simpl in Ht; simplify_eq. done.
    + intros e Ht. destruct (conv lower true x); simpl in Ht; simplify_eq. eauto.
    + intros Ht. destruct (conv lower true x); simpl in Ht; simplify_eq. done.
  - (* nil pointer *)
    assert (conv lower ifc (GPtr d None) = by_kind lower (conv lower) (GPtr d None)) as -> by (by destruct ifc).
    unfold by_kind; cbn [gdesc]. destruct (t_err d) as [[?|]|] eqn:He; [fin|done|fin].
  - (* pointer *)
    assert (conv lower ifc (GPtr d (Some x)) = by_kind lower (conv lower) (GPtr d (Some x))) as -> by (by destruct ifc).
    unfold by_kind; cbn [gdesc]. destruct (t_err d) as [[?|]|] eqn:He; [fin|done|].
    assert (sound lower false x (conv lower false x)) as Hs.
    { apply IH.
      - eapply go_value_part; [|exact Hg]. eapply part_ptr; constructor.
      - eapply calm_part; [|exact Hc]. eapply part_ptr; constructor. }
    destruct (conv lower false x) as [t|e|]; cbn [sound] in *; [|by apply un_ptr|done].
    destruct Hs as [Hm Hn]. split; [by apply mi_ptr|]. intros Hun; inversion Hun; subst; done.
  - (* nil interface *)
    destruct ifc; cbn [conv].
    + split; [constructor|]. intros Hun; inversion Hun.
    + unfold by_kind; cbn [gdesc]. destruct Hif as [He|He]; rewrite He; [|done]. by apply un_iface_loc.
  - (* interface *)
    destruct Hif as [Hde Hni].
    assert (sound lower true x (conv lower true x)) as Hs.
    { apply IH.
      - eapply go_value_part; [|exact Hg]. eapply part_iface; constructor.
      - eapply calm_part; [|exact Hc]. eapply part_iface; constructor. }
    destruct ifc; cbn [conv].
    + destruct (conv lower true x) as [t|e|]; cbn [sound] in *; [|by apply un_iface|done].
      destruct Hs as [Hm Hn]. split; [by apply mi_iface|]. intros Hun; inversion Hun; subst; done.
    + unfold by_kind; cbn [gdesc]. destruct (t_err d) as [[s|]|] eqn:He; [|done|by apply un_iface_loc].
      destruct Hde as [?|Hde]; [done|]. split.
      * apply mi_iface, mi_err; done.
      * intros Hun; inversion Hun; subst; congruence.
  - (* struct *)
    assert (conv lower ifc (GStruct d l) = by_kind lower (conv lower) (GStruct d l)) as -> by (by destruct ifc).
    unfold by_kind; cbn [gdesc]. destruct (t_err d) as [[?|]|] eqn:He; [fin|done|].
    assert (Forall (λ fv, sound lower false fv.2 (conv lower false fv.2)) l) as HIH.
    { rewrite Forall_forall in *. intros [f x] Hx. apply IH; [done| |].
      - eapply go_value_part; [|exact Hg]. eapply part_field; [done|constructor].
      - eapply calm_part; [|exact Hc]. eapply part_field; [done|constructor]. }
    assert (Forall (λ fv : finfo * gval, stringer fv.2 ≠ Some Panic) l) as Hstr.
    { apply Forall_forall. intros [f x] Hx. cbn [snd].
      assert (part x (GStruct d l)) as Hp by (eapply part_field; [done|constructor]).
      destruct (Hc x Hp) as [_ Hs]. destruct x as [| | | | | | | | | |d' [y|]| |]; try done. simpl.
      apply Hc. eapply part_trans; [|exact Hp]. apply part_iface. constructor. }
    pose proof (struct_loop_sound lower l HIH Hstr []) as Hm.
    destruct (struct_loop lower (conv lower) l []) as [m|e|]; cbn [rbind sound]; [| |done].
    + destruct Hm as (l' & Hl & -> & Hn). split; [by apply mi_struct|].
      intros Hun; inversion Hun; subst. eapply Hn; eauto.
    + destruct Hm as (f & x & ? & ? & ?). by eapply un_field.
  - (* other *)
    assert (conv lower ifc (GOther d) = by_kind lower (conv lower) (GOther d)) as -> by (by destruct ifc).
    unfold by_kind; cbn [gdesc]. destruct (t_err d) as [[?|]|] eqn:He; [fin|done|]. by apply un_other.
Qed.

(** ** A value has only one mirror image *)
Lemma mirrors_det lower v : ∀ ifc t t', mirrors lower ifc v t → mirrors lower ifc v t' → t = t'.
Proof.
  induction v as [d b|d z|d z|d z|d z|d s|d z|d l IH|d l IH|d|d x IH|d|d x IH|d l IH|d] using gval_ind';
    intros ifc t t' H1 H2;
    try (inversion H1; inversion H2; subst; cbn [gdesc] in *; try congruence;
         match goal with H : ∀ d o, _ ≠ GIface d o |- _ => exfalso; eapply H; reflexivity | _ => idtac end; fail).
  - inversion H1 as [? ? ? Hn1 He1| | | | | | | | | | | |? ? ? ts1 He1 Hl1| |]; subst;
      inversion H2 as [? ? ? Hn2 He2| | | | | | | | | | | |? ? ? ts2 He2 Hl2| |]; subst; cbn [gdesc] in *; try congruence.
    f_equal. clear H1 H2. revert ts2 Hl2. induction Hl1 as [|x t l ts Hx Hl IHl]; intros ts2 Hl2; inversion Hl2; subst; [done|].
    apply Forall_cons in IH as [IHx IH]. f_equal; eauto.
  - inversion H1 as [? ? ? Hn1 He1| | | | | | | | | | | | |? ? ? ts1 He1 Hl1|]; subst;
      inversion H2 as [? ? ? Hn2 He2| | | | | | | | | | | | |? ? ? ts2 He2 Hl2|]; subst; cbn [gdesc] in *; try congruence.
    f_equal. f_equal. clear H1 H2. revert ts2 Hl2.
    induction Hl1 as [|x t l ts [Hk Hx] Hl IHl]; intros ts2 Hl2; inversion Hl2 as [|? t2 ? ? [Hk2 Hx2]]; subst; [done|].
    apply Forall_cons in IH as [IHx IH]. f_equal; eauto. destruct t, t2. simpl in *. f_equal; [congruence|eauto].
  - inversion H1 as [? ? ? Hn1 He1| | | |? ? ? ? He1 Hx1| | | | | | | | | |]; subst;
      inversion H2 as [? ? ? Hn2 He2| | | |? ? ? ? He2 Hx2| | | | | | | | | |]; subst; cbn [gdesc] in *; try congruence. eauto.
  - inversion H1 as [? ? ? Hn1 He1| |? ? ? ? Hx1| | | | | | | | | | | |]; subst; [by exfalso; eapply Hn1|].
    inversion H2 as [? ? ? Hn2 He2| |? ? ? ? Hx2| | | | | | | | | | | |]; subst; [by exfalso; eapply Hn2|]. eauto.
  - inversion H1 as [? ? ? Hn1 He1| | | | | | | | | | | | | |? ? ? ts1 He1 Hl1]; subst;
      inversion H2 as [? ? ? Hn2 He2| | | | | | | | | | | | | |? ? ? ts2 He2 Hl2]; subst; cbn [gdesc] in *; try congruence.
    f_equal. f_equal. clear H1 H2 He1 He2. revert ts1 ts2 Hl1 Hl2.
    induction l as [|[f v] l IHl]; intros ts1 ts2 Hl1 Hl2; [inversion Hl1; inversion Hl2; done|].
    apply Forall_cons in IH as [IHx IH]. specialize (IHl IH). cbn [snd] in *.
    assert (∀ n n', field_name lower f n → field_name lower f n' → n = n') as Hn.
    { intros n n'. rewrite !field_name_spec. congruence. }
    inversion Hl1; subst; inversion Hl2; subst; try done; try congruence; eauto; repeat f_equal; eauto; congruence.
Qed.

(** ** The documented cases *)
Lemma refused_unsupported v : refused v → ∀ ifc, (∀ d o, v = GIface d o → ifc = true) →
  (∀ d o, part (GPtr d (Some o)) v → ∀ d' o', o ≠ GIface d' o') →
  (∀ d fs f x, part (GStruct d fs) v → (f, x) ∈ fs → ∀ d' o', x ≠ GIface d' o') →
  (∀ d x, part (GIface d (Some x)) v → ∀ d' o', x ≠ GIface d' o') →
  unsupported ifc v.
Proof.
  induction 1 as [d He|d x Hr IH|d x He Hr IH|d items x He Hx Hr IH|d kvs k x He Hx Hr IH|d fs f x He Hx Hl Hr IH];
    intros ifc Hi Hp Hs Hii.
  - by apply un_other.
  - rewrite (Hi d (Some x) eq_refl). apply un_iface. apply IH.
    + done.
    + intros d' o' Hpa. eapply Hp. by apply part_iface.
    + intros d' fs f y Hpa. eapply Hs. by apply part_iface.
    + intros d' y Hpa. eapply Hii. by apply part_iface.
  - apply un_ptr; [done|]. apply IH.
    + intros d' o' ->. exfalso. eapply Hp; [constructor|done].
    + intros d' o' Hpa. eapply Hp. by apply part_ptr.
    + intros d' fs f y Hpa. eapply Hs. by apply part_ptr.
    + intros d' y Hpa. eapply Hii. by apply part_ptr.
  - eapply un_slice; [done|done|]. apply IH.
    + done.
    + intros d' o' Hpa. eapply Hp. by eapply part_slice.
    + intros d' fs f y Hpa. eapply Hs. by eapply part_slice.
    + intros d' y Hpa. eapply Hii. by eapply part_slice.
  - eapply un_map; [done|done|]. apply IH.
    + done.
    + intros d' o' Hpa. eapply Hp. by eapply part_map.
    + intros d' fs f y Hpa. eapply Hs. by eapply part_map.
    + intros d' y Hpa. eapply Hii. by eapply part_map.
  - eapply un_field; [done|done|done|]. apply IH.
    + intros d' o' ->. exfalso. eapply Hs; [constructor|done|done].
    + intros d' o' Hpa. eapply Hp. by eapply part_field.
    + intros d' fs' f' y Hpa. eapply Hs. by eapply part_field.
    + intros d' y Hpa. eapply Hii. by eapply part_field.
Qed.
(** Interfaces only as elements of slices and maps (and at the top), no uintptr. *)
Definition common (v : gval) : Prop :=
  (∀ d d' o, part (GPtr d (Some (GIface d' o))) v → False) ∧
  (∀ d fs f d' o, part (GStruct d fs) v → (f, GIface d' o) ∈ fs → False) ∧
  (∀ d z, part (GUintptr d z) v → False).
Lemma unsupported_refused ifc v : unsupported ifc v → (∀ d o, v = GIface d o → ifc = true) → common v → refused v.
Proof.
  induction 1 as [ifc d He|d o He|ifc d z He Hie|d x Hr IH|ifc d x He Hr IH|ifc d items x He Hx Hr IH|ifc d kvs k x He Hx Hr IH|ifc d fs f x He Hx Hl Hr IH];
    intros Hi (Hp & Hs & Hu).
  - by apply re_other.
  - by specialize (Hi _ _ eq_refl).
  - exfalso. eapply Hu. constructor.
  - apply re_iface, IH; [done|]. split_and!.
    + intros. eapply Hp. by apply part_iface.
    + intros. eapply Hs; [by apply part_iface|done].
    + intros. eapply Hu. by apply part_iface.
  - apply re_ptr; [done|]. apply IH.
    + intros d' o ->. exfalso. eapply Hp. constructor.
    + split_and!.
      * intros. eapply Hp. by apply part_ptr.
      * intros. eapply Hs; [by apply part_ptr|done].
      * intros. eapply Hu. by apply part_ptr.
  - eapply re_slice; [done|done|]. apply IH; [done|]. split_and!.
    + intros. eapply Hp. by eapply part_slice.
    + intros. eapply Hs; [by eapply part_slice|done].
    + intros. eapply Hu. by eapply part_slice.
  - eapply re_map; [done|done|]. apply IH; [done|]. split_and!.
    + intros. eapply Hp. by eapply part_map.
    + intros. eapply Hs; [by eapply part_map|done].
    + intros. eapply Hu. by eapply part_map.
  - eapply re_field; [done|done|done|]. apply IH.
    + intros d' o ->. exfalso. eapply Hs; [constructor|done].
    + split_and!.
      * intros. eapply Hp. by eapply part_field.
      * intros. eapply Hs; [by eapply part_field|done].
      * intros. eapply Hu. by eapply part_field.
Qed.

(** ** The order of map entries *)
Lemma reordered_desc v v' : reordered v v' → gdesc v = gdesc v' ∧ stringer v = stringer v' ∧
  (∀ d o, v = GIface d o ↔ v' = GIface d o → True).
Proof.
  assert (∀ v v', reordered v v' → gdesc v = gdesc v') as Hd by (by destruct 1).
  intros H. split_and!; [by apply Hd|destruct H; try done; simpl; by rewrite (Hd x x')|done].
Qed.
Lemma reordered_conv lower v : ∀ v' ifc t, distinct_keys v → reordered v v' →
  conv lower ifc v = RVal t → conv lower ifc v' = RVal t.
Proof.
  induction v as [d b|d z|d z|d z|d z|d s|d z|d l IH|d l IH|d|d x IH|d|d x IH|d l IH|d] using gval_ind';
    intros v' ifc t Hk Hr Hc; try (inversion Hr; subst; exact Hc).
  - (* slice *)
    inversion Hr as [|? ? l' Hl| | | |]; subst; [done|].
    assert (∀ l, conv lower ifc (GSlice d l) = by_kind lower (conv lower) (GSlice d l)) as Hbk by (by destruct ifc).
    rewrite Hbk in *. unfold by_kind in *. cbn [gdesc] in *. destruct (t_err d) as [[?|]|]; [done|done|].
    pose proof (rmapM_cases (conv lower true) l) as Hm. destruct (rmapM (conv lower true) l) as [ts|e|]; simpl in Hc; [|done|done].
    rewrite (proj2 (rmapM_Forall2 (conv lower true) l' ts)); [done|]. simplify_eq.
    assert (∀ x, x ∈ l → distinct_keys x) as Hkx.
    { intros x Hx d' kvs Hp. eapply Hk. eapply part_slice; [done|done]. }
    clear Hr Hk Hbk. revert ts Hm. induction Hl as [|x x' l l' Hx Hl IHl]; intros ts Hm; inversion Hm; subst; constructor.
    + apply Forall_cons in IH as [IHx IH]. eapply IHx; [|done|done]. apply Hkx. left.
    + apply Forall_cons in IH as [IHx IH]. apply IHl; [done| |done]. intros y2 Hy. apply Hkx. by right.
  - (* map *)
    inversion Hr as [| |? ? l1 l' Hl Hp| | |]; subst; [done|].
    assert (NoDup (map fst l)) as Hnd by (eapply Hk; constructor).
    assert (∀ k x, (k, x) ∈ l → distinct_keys x) as Hkx.
    { intros k x Hx d' kvs Hpa. eapply Hk. eapply part_map; [done|done]. }
    assert (∀ (F : string → string) (f : string * gval → rres (string * tree)),
      (∀ a b, F a = F b → a = b) →
      (∀ k x t, f (k, x) = RVal t → t.1 = F k) →
      (∀ k x x' t, f (k, x) = RVal t → (∀ t, conv lower true x = RVal t → conv lower true x' = RVal t) → f (k, x') = RVal t) →
      rbind (rmapM f l) (λ l, RVal (TObj (mof_list l))) = RVal t →
      rbind (rmapM f l') (λ l, RVal (TObj (mof_list l))) = RVal t) as Hgen.
    { intros F f HF HfF Hf Hv. pose proof (rmapM_cases f l) as Hm. destruct (rmapM f l) as [ts|e|]; simpl in Hv; [|done|done].
      assert (Forall2 (λ x y, f x = RVal y) l1 ts) as Hm1.
      { clear -Hl Hm IH Hkx Hf. revert ts Hm. induction Hl as [|[k x] [k' x'] l l1 [Hkk Hx] Hl IHl]; intros ts Hm; inversion Hm; subst; constructor.
        - simpl in *. subst k'. apply Forall_cons in IH as [IHx IH]. simpl in IHx. eapply Hf; [done|].
          intros t' Ht'. eapply IHx; [|done|done]. apply (Hkx k). left.
        - apply Forall_cons in IH as [IHx IH]. apply IHl; [done| |done]. intros k'' y2 Hy. apply (Hkx k''). by right. }
      assert (∃ ts', Permutation ts ts' ∧ Forall2 (λ x y, f x = RVal y) l' ts') as (ts' & Hpt & Hm').
      { clear -Hm1 Hp. revert ts Hm1. induction Hp as [|x l1 l' Hp IHp|x y l1|l1 l2 l3 H1 IH1 H2 IH2]; intros ts Hm.
        - exists ts. done.
        - inversion Hm as [|? t ? ts1 Hx Hm']; subst. destruct (IHp _ Hm') as (ts' & ? & ?). exists (t :: ts'). split; [by constructor|by constructor].
        - inversion Hm as [|? t1 ? ts1 Hx Hm']; subst. inversion Hm' as [|? t2 ? ts2 Hy Hm'']; subst.
          exists (t2 :: t1 :: ts2). split; [constructor|by repeat constructor].
        - destruct (IH1 _ Hm) as (ts1 & ? & Hm1). destruct (IH2 _ Hm1) as (ts2 & ? & ?). exists ts2. split; [by etrans|done]. }
      rewrite (proj2 (rmapM_Forall2 f l' ts') Hm'). simpl. simplify_eq. do 2 f_equal.
      symmetry. apply mof_list_permutation; [|done].
      assert (map fst ts = map F (map fst l)) as ->.
      { clear -Hm HfF. induction Hm as [|[k x] t l ts Hx Hm IHm]; [done|]. simpl. f_equal; [by eapply HfF|done]. }
      apply (NoDup_fmap_2_strong F); [|done]. intros; eauto. }
    assert (by_kind lower (conv lower) (GMap d l) = RVal t → by_kind lower (conv lower) (GMap d l') = RVal t) as Hbk.
    { unfold by_kind. cbn [gdesc]. destruct (t_err d) as [[?|]|]; [done|done|]. apply (Hgen id); [done| |]; cbn [fst snd]; intros k x.
      - intros t1. destruct (conv lower true x); simpl; intros ?; by simplify_eq.
      - intros x' t1 H Ht. destruct (conv lower true x); simpl in H; [|done|done]. by rewrite (Ht _ eq_refl). }
    destruct ifc; cbn [conv] in *; [|by apply Hbk].
    destruct (t_exact d); [|by apply Hbk]. revert Hc. apply (Hgen EscapeKey); [apply EscapeKey_inj| |]; cbn [fst snd]; intros k x.
    + intros t1. destruct (conv lower true x); simpl; intros ?; by simplify_eq.
    + intros x' t1 H Ht. destruct (conv lower true x); simpl in H; [|done|done]. by rewrite (Ht _ eq_refl).
  - inversion Hr as [| | |? ? x' Hx| |]; subst; [done|].
    assert (distinct_keys x) as Hkx by (intros d' kvs Hp; eapply Hk; by apply part_ptr).
    assert (∀ l, conv lower ifc (GPtr d l) = by_kind lower (conv lower) (GPtr d l)) as Hbk by (by destruct ifc).
    rewrite Hbk in *. unfold by_kind in *. cbn [gdesc] in *. destruct (t_err d) as [[?|]|]; [done|done|]. eauto.
  - inversion Hr as [| | | |? ? x' Hx|]; subst; [done|].
    assert (distinct_keys x) as Hkx by (intros d' kvs Hp; eapply Hk; by apply part_iface).
    destruct ifc; cbn [conv] in *; [eauto|]. unfold by_kind in *. cbn [gdesc] in *. by destruct (t_err d) as [[?|]|].
  - inversion Hr as [| | | | |? ? l' Hl]; subst; [done|].
    assert (∀ l, conv lower ifc (GStruct d l) = by_kind lower (conv lower) (GStruct d l)) as Hbk by (by destruct ifc).
    rewrite Hbk in *. unfold by_kind in *. cbn [gdesc] in *. destruct (t_err d) as [[?|]|]; [done|done|].
    assert (∀ f x, (f, x) ∈ l → distinct_keys x) as Hkx.
    { intros f x Hx d' kvs Hpa. eapply Hk. eapply part_field; [done|done]. }
    assert (∀ obj m, struct_loop lower (conv lower) l obj = RVal m → struct_loop lower (conv lower) l' obj = RVal m) as Hsl.
    { clear -Hl IH Hkx. induction Hl as [|[f x] [f' x'] l l' [Hf Hx] Hl IHl]; intros obj m Hm; [done|].
      simpl in Hf. subst f'. apply Forall_cons in IH as [IHx IH]. cbn [snd] in *.
      specialize (IHl IH). assert (∀ g y, (g, y) ∈ l → distinct_keys y) as Hkl by (intros g y Hy; apply (Hkx g); by right).
      specialize (IHl Hkl). cbn [struct_loop] in *.
      destruct (negb (considered f)); [by apply IHl|].
      destruct (parseTag (f_tag f)) as [tag opts]. destruct (Has opts "omitempty" && f_zero f); [by apply IHl|].
      destruct (conv lower false x) as [t1|e|] eqn:E; simpl in Hm; [|done|done].
      rewrite (IHx x' false t1); [|by apply (Hkx f); left|done|done]. simpl.
      destruct (reordered_desc _ _ Hx) as (_ & <- & _).
      destruct (Has opts "string"); [destruct (stringer x) as [[s|]|]; [by apply IHl|done|by apply IHl]|by apply IHl]. }
    destruct (struct_loop lower (conv lower) l []) as [m|e|] eqn:E; simpl in Hc; [|done|done].
    by rewrite (Hsl _ _ E).
Qed.
