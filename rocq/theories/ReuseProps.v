(** * Property theorems for decoding JSON into a Value that already holds something: C65.

    [UnmarshalValue text s p] (Reuse.v): json.Unmarshal of any bytes into value [p]; the
    flag is whether an error is returned.  [vs_heap s]: the values and maps;
    [slots s p]: the element slots of [p]'s array up to its capacity.  [document],
    [means], [within], [later_wins]: see JsonGrammarProps.v.  [rep h (Some p) t fp]: value
    [p] shows the tree [t] with the arrays and maps [fp]. *)
From Verif Require Import ReuseMem ProtobufProps.
From Coq Require Import Lia.

(** ** C65 *)
(** The value a text says: null is the Null value at the top. *)
Definition says (text : list ascii) (t : tree) : Prop :=
  ∃ j, document text j ∧ within 10000 j ∧ ((j = JNull ∧ t = TNull) ∨ (j ≠ JNull ∧ means j t)).
(** Everything in [s] that is not in [P] is the same in [s']: values, the slots behind
    their arrays' lengths, and maps. *)
Definition untouched (s s' : vstore) (P : loc → Prop) : Prop :=
  (∀ q v, ¬ P (LArr q) → hvals (vs_heap s) !! q = Some v → hvals (vs_heap s') !! q = Some v ∧ vs_spare s' q = vs_spare s q) ∧
  (∀ r gm, ¬ P (LMap r) → hmaps (vs_heap s) !! r = Some gm → hmaps (vs_heap s') !! r = Some gm).
Lemma left_untouched s s' P : left s s' P → untouched s s' P.
Proof.
  intros [(_ & _ & V & M) S]. split; [|done]. intros q v Hq Hv. split; [by apply V|]. apply S; [|done]. unfold in_store. by apply lookup_lt_Some in Hv.
Qed.
Lemma top_tree_iff j t : jvalid j → top_tree j = Some t ↔ (j = JNull ∧ t = TNull) ∨ (j ≠ JNull ∧ means j t).
Proof.
  intros Hv. rewrite means_iff by done. destruct j; cbn [top_tree]; split; try (intros [[? ?]|[? ?]]; congruence); try (intros ?; by right).
  intros [= <-]. by left.
Qed.
Lemma unmarshal_doc text j s p : document text j → within 10000 j → UnmarshalValue text s p = unmarshal j s p.
Proof.
  intros Hd Hw. unfold UnmarshalValue. apply parse_iff in Hd. rewrite Hd. apply within_iff in Hw; [|lia]. change 10000%Z with maxNestingDepth in Hw.
  by rewrite (proj2 (Z.leb_le _ _) Hw).
Qed.

(** A value without array and object then holds what the text says, in memory of its own,
    and nothing else has changed. *)
Theorem C65_new : ∀ s p v text t, hvals (vs_heap s) !! p = Some v → v_arr v = None → v_obj v = None → says text t →
  ∃ s' fp, UnmarshalValue text s p = (s', false) ∧ rep (vs_heap s') (Some p) t fp ∧ NoDup fp ∧
    (∀ c, c ∈ fp → c = LArr p ∨ fresh (vs_heap s) c) ∧ untouched s s' (λ c, c = LArr p).
Proof.
  intros s p v text t Hv Ha Ho (j & Hd & Hw & Ht). rewrite (unmarshal_doc text j) by done.
  apply (top_tree_iff j t (document_valid _ _ Hd)) in Ht.
  assert (in_store s p) as Hin. { unfold in_store. by apply lookup_lt_Some in Hv. }
  pose proof (load_of s p v Hv) as Lv.
  pose proof (clean_decode_all j s p Hin ltac:(by rewrite Lv) ltac:(by rewrite Lv)) as H. rewrite Ht in H.
  destruct H as (s' & cs & Hu & Hc & Nc & Fc & K). destruct (proj1 (crep_rep_all (vs_heap s')) _ _ _ Hc) as (fp & Hr & Hs).
  exists s', fp. split_and!; [done|done| | |by apply left_untouched].
  - apply (NoDup_sub _ _ Hs), NoDup_cons. split; [|done]. intros Hx. rewrite Forall_forall in Fc. specialize (Fc _ Hx).
    unfold in_store in Hin. cbn [fresh] in Fc. lia.
  - intros c Hx. assert (c ∈ LArr p :: cs) as Hx2 by (exact (elem_of_submseteq _ _ _ Hx Hs)). apply elem_of_cons in Hx2 as [->|Hx2]; [by left|].
    right. rewrite Forall_forall in Fc. by apply Fc.
Qed.
Print Assumptions C65_new.
(** A text that says nothing is refused, with no effect on other values. *)
Theorem C65_refuses : ∀ s p v text, hvals (vs_heap s) !! p = Some v → v_arr v = None → v_obj v = None → (∀ t, ¬ says text t) →
  ∃ s', UnmarshalValue text s p = (s', true) ∧ untouched s s' (λ c, c = LArr p).
Proof.
  intros s p v text Hv Ha Ho Hn. unfold UnmarshalValue. destruct (parse text) as [j|] eqn:Ep; [|by exists s].
  destruct (Z.leb_spec (jdepth j) maxNestingDepth) as [Hl|]; [|by exists s]. apply parse_iff in Ep.
  assert (within 10000 j) as Hw. { apply within_iff; [lia|exact Hl]. }
  assert (in_store s p) as Hin. { unfold in_store. by apply lookup_lt_Some in Hv. }
  pose proof (load_of s p v Hv) as Lv.
  pose proof (clean_decode_all j s p Hin ltac:(by rewrite Lv) ltac:(by rewrite Lv)) as H.
  destruct (top_tree j) as [t|] eqn:Et.
  - apply (top_tree_iff j t (document_valid _ _ Ep)) in Et. destruct (Hn t). by exists j.
  - destruct H as (s' & Hu & K). exists s'. split; [done|by apply left_untouched].
Qed.
Print Assumptions C65_refuses.

(** Decoding changes at most the value, the values its array slots lead to, also those
    behind the lengths, the maps of these values, and nothing else: [C] is any set of
    values containing [p] and with each value those in its slots. *)
Theorem C65_frame : ∀ text s p (C : ptr → Prop), C p →
  (∀ q, C q → in_store s q ∧ ∀ q', Some q' ∈ slots s q → C q') →
  untouched s (UnmarshalValue text s p).1 (λ c, match c with LArr q => C q | LMap r => ∃ q v, C q ∧ hvals (vs_heap s) !! q = Some v ∧ v_obj v = Some r end).
Proof.
  intros text s p C Hp D. assert (untouched s (UnmarshalValue text s p).1 (touched s C)) as H.
  { unfold UnmarshalValue. destruct (parse text) as [j|]; [|done]. destruct (_ <=? _)%Z; [|done].
    destruct (frames_all j s p C D Hp) as (C' & K & _). by apply left_untouched. }
  destruct H as [HV HM]. split; [exact HV|]. intros r gm Hr. apply HM. intros (q & Hq & Ho). apply Hr. exists q, (load s q).
  split_and!; [done|apply load_some, D, Hq|done].
Qed.
Print Assumptions C65_frame.

(** The entries of a series of texts, in order; texts other than objects add none. *)
Inductive entries : list json → list (string * tree) → Prop :=
| en_nil : entries [] []
| en_obj m ts js rest : Forall2 (λ kj kt, kj.1 = kt.1 ∧ means kj.2 kt.2) m ts → entries js rest → entries (JObj m :: js) (ts ++ rest)
| en_plain j t js rest : (∀ m, j ≠ JObj m) → (∀ l, j ≠ JArr l) → (j ≠ JNull → means j t) → entries js rest → entries (j :: js) rest.
(** One after the other into the same value. *)
Fixpoint decode_each (texts : list (list ascii)) (s : vstore) (p : ptr) : option vstore :=
  match texts with
  | [] => Some s
  | text :: texts' => match UnmarshalValue text s p with (s', false) => decode_each texts' s' p | (_, true) => None end
  end.
Lemma each_over js rest : entries js rest → ∀ texts, Forall2 (λ text j, document text j ∧ within 10000 j) texts js →
  ∀ s p m0 fp, obj_field (vs_heap s) p m0 fp → NoDup fp →
  ∃ s' fp', decode_each texts s p = Some s' ∧ obj_field (vs_heap s') p (fold_left (λ m kv, mset kv.1 kv.2 m) rest m0) fp' ∧ NoDup fp' ∧
    left s s' (own_obj s p) ∧ v_obj (load s' p) = v_obj (load s p).
Proof.
  induction 1 as [|m ts js rest Hm _ IH|j t js rest Ho Ha Ht _ IH]; intros texts HT s p m0 fp Hf Hn.
  - apply Forall2_nil_inv_r in HT as ->. by exists s, fp.
  - apply Forall2_cons_inv_r in HT as (text & texts' & [Hd Hw] & HT & ->). cbn [decode_each]. rewrite (unmarshal_doc text _ s p Hd Hw).
    apply (fields_means m ts) in Hm; [|apply Forall_forall; intros [k j] _ Hv; by apply means_iff|by apply (document_valid text)].
    destruct (obj_over m ts s p m0 fp Hm Hf Hn) as (s1 & fp1 & -> & Hf1 & Hn1 & _ & Ho1 & K1).
    destruct (IH texts' HT s1 p _ fp1 Hf1 Hn1) as (s2 & fp2 & E2 & Hf2 & Hn2 & K2 & Ho2). exists s2, fp2. rewrite fold_left_app.
    split_and!; [done|done|done| |congruence]. apply (left_trans _ _ _ _ _ K1 K2). intros c Hc. left. unfold own_obj in *. by rewrite Ho1 in Hc.
  - apply Forall2_cons_inv_r in HT as (text & texts' & [Hd Hw] & HT & ->). cbn [decode_each]. rewrite (unmarshal_doc text _ s p Hd Hw).
    assert (∃ t', top_tree j = Some t') as [t' Et].
    { assert (j = JNull ∨ j ≠ JNull) as [->|Hj] by (destruct j; (by left) || (by right)); [by eexists|]. exists t.
      apply (top_tree_iff j t (document_valid _ _ Hd)). right. auto. }
    destruct (plain_over j t' s p m0 fp) as (s1 & -> & Hf1 & _ & Ho1 & K1); try done.
    { destruct j; try done; [by destruct (Ha l)|by destruct (Ho m)]. }
    destruct (IH texts' HT s1 p _ fp Hf1 Hn) as (s2 & fp2 & E2 & Hf2 & Hn2 & K2 & Ho2). exists s2, fp2.
    split_and!; [done|done|done| |congruence].
    apply (left_trans _ s1 _ _ (own_obj s1 p)); [|done|].
    + apply (left_weaken _ _ _ _ K1). intros c ->. by left.
    + intros c Hc. left. unfold own_obj in *. by rewrite Ho1 in Hc.
Qed.
(** A value that has an object keeps it through any texts but arrays, also while it is a
    string or null in between, and the objects' entries accumulate, later ones winning;
    only the value and its one map change. *)
Theorem C65_accumulates : ∀ texts js rest, Forall2 (λ text j, document text j ∧ within 10000 j) texts js → entries js rest →
  ∀ s p m0 fp, obj_field (vs_heap s) p m0 fp → NoDup fp →
  ∃ s' m1 fp', decode_each texts s p = Some s' ∧ later_wins (m0 ++ rest) m1 ∧ obj_field (vs_heap s') p m1 fp' ∧ NoDup fp' ∧
    untouched s s' (λ c, c = LArr p ∨ ∃ v r, hvals (vs_heap s) !! p = Some v ∧ v_obj v = Some r ∧ c = LMap r).
Proof.
  intros texts js rest HT HE s p m0 fp Hf Hn. destruct (each_over js rest HE texts HT s p m0 fp Hf Hn) as (s' & fp' & E & Hf' & Hn' & K & _).
  exists s', (fold_left (λ m kv, mset kv.1 kv.2 m) rest m0), fp'. split_and!; [done| |done|done|].
  - destruct Hf as (v & r & gm & fp0 & _ & _ & _ & Hs & Ha & _).
    assert (msorted m0) as Hs0 by (apply (keys_msorted gm); [symmetry; by apply (rep_assoc_keys _ _ _ _ Ha)|done]).
    pose proof (mof_list_later (m0 ++ rest)) as HL. unfold mof_list in HL. rewrite fold_left_app in HL.
    change (fold_left (λ m kv, mset kv.1 kv.2 m) m0 []) with (mof_list m0) in HL. by rewrite mof_list_sorted in HL.
  - apply left_untouched. apply (left_weaken _ _ _ _ K). intros c [->|(r & Hr & ->)]; [by left|right]. exists (load s p), r.
    split_and!; [|done|done]. apply load_some. destruct Hf as (v & ? & ? & ? & Hv & _). unfold in_store. by apply lookup_lt_Some in Hv.
Qed.
Print Assumptions C65_accumulates.
(** A text that is an object leaves the value an object of its map's entries. *)
Theorem C65_merges : ∀ text m ts s p m0 fp, document text (JObj m) → within 10000 (JObj m) →
  Forall2 (λ kj kt, kj.1 = kt.1 ∧ means kj.2 kt.2) m ts → obj_field (vs_heap s) p m0 fp → NoDup fp →
  ∃ s' m1 fp', UnmarshalValue text s p = (s', false) ∧ later_wins (m0 ++ ts) m1 ∧ rep (vs_heap s') (Some p) (TObj m1) fp' ∧ NoDup fp'.
Proof.
  intros text m ts s p m0 fp Hd Hw Hm Hf Hn. rewrite (unmarshal_doc text _ s p Hd Hw).
  apply (fields_means m ts) in Hm; [|apply Forall_forall; intros [k j] _ Hv; by apply means_iff|by apply (document_valid text)].
  destruct (obj_over m ts s p m0 fp Hm Hf Hn) as (s1 & fp1 & Hu & Hf1 & Hn1 & Hty & _ & K1).
  exists s1, (fold_left (λ m kv, mset kv.1 kv.2 m) ts m0), fp1. split_and!; [done| | |done].
  - destruct Hf as (v & r & gm & fp0 & _ & _ & _ & Hs & Ha & _).
    assert (msorted m0) as Hs0 by (apply (keys_msorted gm); [symmetry; by apply (rep_assoc_keys _ _ _ _ Ha)|done]).
    pose proof (mof_list_later (m0 ++ ts)) as HL. unfold mof_list in HL. rewrite fold_left_app in HL.
    change (fold_left (λ m kv, mset kv.1 kv.2 m) m0 []) with (mof_list m0) in HL. by rewrite mof_list_sorted in HL.
  - destruct Hf1 as (v & r & gm & fp0 & Hv & Hr & Hg & Hs & Ha & ->). rewrite (load_of _ _ _ Hv) in Hty. by apply (rep_obj _ p v r gm).
Qed.
Print Assumptions C65_merges.

(** An array text over an array: afterwards there are as many slots as elements; null is
    nil there; any other element is decoded into the value the slot pointed to before,
    also if it lay behind the length, and into a new one only if there was none; the
    value's other fields stay.  [C]: any set of values that contains those in [p]'s slots,
    with each value those in its slots, and not [p]. *)
Theorem C65_in_place : ∀ text l s p v (C : ptr → Prop) s', document text (JArr l) → UnmarshalValue text s p = (s', false) →
  hvals (vs_heap s) !! p = Some v → (∀ q, Some q ∈ slots s p → C q) →
  (∀ q, C q → q ≠ p ∧ in_store s q ∧ ∀ q', Some q' ∈ slots s q → C q') →
  ∃ ops, hvals (vs_heap s') !! p = Some (mkValue (v_int v) (v_uint v) (v_float v) (v_ts v) (v_str v) (Some ops) (v_obj v) (v_bool v) ArrayType) ∧
    length ops = length l ∧
    (∀ i, l !! i = Some JNull → ops !! i = Some None) ∧
    (∀ i j q, l !! i = Some j → j ≠ JNull → slots s p !! i = Some (Some q) → ops !! i = Some (Some q)) ∧
    (∀ i j, l !! i = Some j → j ≠ JNull → (∀ q, slots s p !! i ≠ Some (Some q)) → ∃ q, ops !! i = Some (Some q) ∧ fresh (vs_heap s) (LArr q)).
Proof.
  intros text l s p v C s' Hd Hu Hv Hp HC.
  assert (in_store s p) as Hin. { unfold in_store. by apply lookup_lt_Some in Hv. }
  assert (unmarshal (JArr l) s p = (s', false)) as Hu'.
  { unfold UnmarshalValue in Hu. apply parse_iff in Hd. rewrite Hd in Hu. by destruct (_ <=? _)%Z. }
  assert (apart s p C) as A.
  { split_and!; [done| | |exact Hp]; [intros q Hq; by destruct (HC q Hq) as (_ & ? & ?)|]. intros Hq. by destruct (HC p Hq). }
  destruct (array_in_place l s p C s' A Hu') as (ops & Lo & Hl & Ho & Hin'). rewrite (load_of s p v Hv) in Lo. exists ops. split_and!.
  - rewrite <-Lo. by apply load_some.
  - done.
  - intros i Hi. by destruct (Ho i JNull Hi) as (x & -> & ->).
  - intros i j q Hi Hj Hs. destruct (Ho i j Hi) as (x & -> & Px). unfold behind in Px. rewrite Hs in Px. assert (x = Some q) as -> by (by destruct j). done.
  - intros i j Hi Hj Hs. destruct (Ho i j Hi) as (x & -> & Px). assert (behind s p i = None) as E.
    { unfold behind. destruct (slots s p !! i) as [[q|]|] eqn:Es; [by destruct (Hs q)|done|done]. }
    rewrite E in Px. assert (∃ q, x = Some q ∧ fresh (vs_heap s) (LArr q)) as (q & -> & Hq) by (destruct j; done). eauto.
Qed.
Print Assumptions C65_in_place.

(** As long as no object is involved a value can be used again and again, also after
    failed attempts: it then holds exactly what the last text says.  [own s true (Some p) cs]:
    the values that [p]'s slots lead to, also behind the lengths, are [cs], and none of
    them has an object; [NoDup]: none is reached in two ways. *)
Theorem C65_reuse : ∀ texts s p cs, own s true (Some p) cs → NoDup cs →
  (∀ text j, text ∈ texts → document text j → no_objects j = true) →
  ∀ text t, says text t →
  let s1 := fold_left (λ s0 text0, (UnmarshalValue text0 s0 p).1) texts s in
  ∃ s' fp, UnmarshalValue text s1 p = (s', false) ∧ rep (vs_heap s') (Some p) t fp ∧ NoDup fp ∧ untouched s s' (λ c, c ∈ cs).
Proof.
  intros texts s p cs Ho Hn HT text t Ht. cbv zeta. inversion Ho as [|p' cs0 Hin Hob Hsl E1 E2]. subst p' cs. rename cs0 into cs.
  assert (∀ texts s1 cs1, (∀ text j, text ∈ texts → document text j → no_objects j = true) →
    own s1 true (Some p) (LArr p :: cs1) → NoDup (LArr p :: cs1) → left s s1 (λ c, c ∈ LArr p :: cs) → (∀ c, c ∈ cs1 → c ∈ cs ∨ fresh (vs_heap s) c) →
    ∃ cs2, own (fold_left (λ s0 text0, (UnmarshalValue text0 s0 p).1) texts s1) true (Some p) (LArr p :: cs2) ∧ NoDup (LArr p :: cs2) ∧
      left s (fold_left (λ s0 text0, (UnmarshalValue text0 s0 p).1) texts s1) (λ c, c ∈ LArr p :: cs) ∧ (∀ c, c ∈ cs2 → c ∈ cs ∨ fresh (vs_heap s) c)) as Hseq.
  { clear texts HT. induction texts as [|x texts IH]; intros s1 cs1 HT Ho1 Hn1 K1 Hc1; [by exists cs1|]. cbn [fold_left].
    assert (∃ cs2, own (UnmarshalValue x s1 p).1 true (Some p) (LArr p :: cs2) ∧ NoDup (LArr p :: cs2) ∧
      left s (UnmarshalValue x s1 p).1 (λ c, c ∈ LArr p :: cs) ∧ (∀ c, c ∈ cs2 → c ∈ cs ∨ fresh (vs_heap s) c)) as (cs2 & H2 & N2 & K2 & Hc2).
    { unfold UnmarshalValue. destruct (parse x) as [j|] eqn:Ex; [|by exists cs1]. destruct (_ <=? _)%Z; [|by exists cs1].
      destruct (exact_decode_all j s1 p cs1 Ho1 Hn1) as (s2 & err & cs2 & -> & H2 & N2 & Hc2 & K2 & _). cbn [fst].
      apply parse_iff in Ex. rewrite (HT x j ltac:(by left) Ex) in H2. exists cs2. split_and!; try done.
      - apply (left_trans _ _ _ _ _ K1 K2). intros c Hc. apply elem_of_cons in Hc as [->|Hc]; [left; by left|]. destruct (Hc1 c Hc); [left; by right|by right].
      - intros c Hc. destruct (Hc2 c Hc) as [H'|H']; [by apply Hc1|right]. exact (kept_fresh _ _ _ _ (proj1 K1) H'). }
    apply (IH _ cs2); try done. intros y j Hy. apply HT. by right. }
  destruct (Hseq texts s cs HT Ho Hn (left_refl _ _) ltac:(by left)) as (cs1 & Ho1 & Hn1 & K1 & Hc1).
  set (s1 := fold_left _ texts s) in *. destruct Ht as (j & Hd & Hw & Ht). apply (top_tree_iff j t (document_valid _ _ Hd)) in Ht.
  rewrite (unmarshal_doc text j) by done.
  destruct (exact_decode_all j s1 p cs1 Ho1 Hn1) as (s2 & err & cs2 & Hu & _ & _ & _ & K2 & H). rewrite Ht in H.
  destruct H as (-> & c & Hc & Nc & _). destruct (proj1 (crep_rep_all (vs_heap s2)) _ _ _ Hc) as (fp & Hr & Hs).
  exists s2, fp. split_and!; [done|done|by apply (NoDup_sub _ _ Hs)|]. apply left_untouched.
  apply (left_trans _ _ _ _ _ K1 K2). intros x Hx. apply elem_of_cons in Hx as [->|Hx]; [left; by left|]. destruct (Hc1 x Hx); [left; by right|by right].
Qed.
Print Assumptions C65_reuse.

(** In general: whatever value [p] holds, decoding a text does to it exactly what [over]
    (ReuseSpec.v) says, which is one thing only, and changes nothing else.  [NoDup]: none of
    the values and maps [cs] that [p] leads to, also through fields its type does not show
    and slots behind lengths, is reached in two ways. *)
Theorem C65_exact : ∀ text j s p m cs, document text j → within 10000 j → holds s (Some p) m cs → NoDup cs →
  ∃ m' ok s' cs', over j m m' ok ∧ (∀ m1 ok1, over j m m1 ok1 → m1 = m' ∧ ok1 = ok) ∧
    UnmarshalValue text s p = (s', negb ok) ∧ holds s' (Some p) m' cs' ∧ NoDup cs' ∧
    (∀ c, c ∈ cs' → c ∈ cs ∨ fresh (vs_heap s) c) ∧ untouched s s' (λ c, c ∈ cs).
Proof.
  intros text j s p m cs Hd Hw Hh Hn. pose proof (document_valid _ _ Hd) as Hv. pose proof (proj1 (holds_sane_all s) _ _ _ Hh) as Hs.
  assert (m ≠ MNil) as Hm by (by inversion Hh). rewrite (unmarshal_doc text j) by done.
  destruct (keeps_all j s p m cs Hh Hn) as (s' & cs' & Hu & Hh' & Hn' & Hc & K). exists (decode j m).1, (decode j m).2, s', cs'.
  split_and!; [by apply over_all| |done|done|done|done|by apply left_untouched].
  intros m1 ok1 H1. apply over_iff in H1; [|done|done|done]. by rewrite H1.
Qed.
Print Assumptions C65_exact.
(** Any texts one after the other, also such that are refused: those that are no JSON, or
    nested too deeply, do nothing. *)
Inductive overs_texts : list (list ascii) → mem → mem → Prop :=
| ot_nil m : overs_texts [] m m
| ot_bad text texts m m' : (∀ j, document text j → ¬ within 10000 j) → overs_texts texts m m' → overs_texts (text :: texts) m m'
| ot_good text j ok texts m m1 m' : document text j → within 10000 j → over j m m1 ok → overs_texts texts m1 m' → overs_texts (text :: texts) m m'.
Theorem C65_history : ∀ texts s p m cs, holds s (Some p) m cs → NoDup cs →
  let s' := fold_left (λ s0 text, (UnmarshalValue text s0 p).1) texts s in
  ∃ m' cs', overs_texts texts m m' ∧ holds s' (Some p) m' cs' ∧ NoDup cs' ∧ (∀ c, c ∈ cs' → c ∈ cs ∨ fresh (vs_heap s) c) ∧ untouched s s' (λ c, c ∈ cs).
Proof.
  assert (∀ texts s p m cs, holds s (Some p) m cs → NoDup cs →
    ∃ m' cs', overs_texts texts m m' ∧ holds (fold_left (λ s0 text, (UnmarshalValue text s0 p).1) texts s) (Some p) m' cs' ∧ NoDup cs' ∧
      (∀ c, c ∈ cs' → c ∈ cs ∨ fresh (vs_heap s) c) ∧ left s (fold_left (λ s0 text, (UnmarshalValue text s0 p).1) texts s) (λ c, c ∈ cs)) as H.
  { induction texts as [|text texts IH]; intros s p m cs Hh Hn.
    { exists m, cs. split_and!; try done; [apply ot_nil|by left]. }
    cbn [fold_left].
    assert ((∀ j, document text j → ¬ within 10000 j) ∧ (UnmarshalValue text s p).1 = s ∨ ∃ j, document text j ∧ within 10000 j) as [[Hb E]|(j & Hd & Hw)].
    { unfold UnmarshalValue. destruct (parse text) as [j|] eqn:Ep.
      - apply parse_iff in Ep. destruct (Z.leb_spec (jdepth j) maxNestingDepth) as [Hl|Hl].
        + right. exists j. split; [done|]. apply within_iff; [lia|exact Hl].
        + left. split; [|done]. intros j' Hd Hw. apply parse_iff in Hd. apply parse_iff in Ep. rewrite Hd in Ep. injection Ep as <-.
          apply within_iff in Hw; [|lia]. change 10000%Z with maxNestingDepth in Hw. lia.
      - left. split; [|done]. intros j' Hd. apply parse_iff in Hd. congruence. }
    - rewrite E. destruct (IH s p m cs Hh Hn) as (m' & cs' & H1 & H2). exists m', cs'. split; [by apply ot_bad|done].
    - rewrite (unmarshal_doc text j) by done. pose proof (document_valid _ _ Hd) as Hv. pose proof (proj1 (holds_sane_all s) _ _ _ Hh) as Hs.
      assert (m ≠ MNil) as Hm by (by inversion Hh).
      destruct (keeps_all j s p m cs Hh Hn) as (s1 & cs1 & -> & Hh1 & Hn1 & Hc1 & K1). cbn [fst].
      destruct (IH s1 p _ cs1 Hh1 Hn1) as (m' & cs' & H1 & H2 & H3 & H4 & K2). exists m', cs'. split_and!; [|done|done| |].
      + apply (ot_good text j (decode j m).2 texts m (decode j m).1); try done. by apply over_all.
      + intros c Hc. destruct (H4 c Hc) as [H'|H']; [by apply Hc1|right]. exact (kept_fresh _ _ _ _ (proj1 K1) H').
      + apply (left_trans _ _ _ _ _ K1 K2). exact Hc1. }
  intros texts s p m cs Hh Hn. destruct (H texts s p m cs Hh Hn) as (m' & cs' & H1 & H2 & H3 & H4 & K). exists m', cs'. split_and!; try done. by apply left_untouched.
Qed.
Print Assumptions C65_history.
(** The value then shows what the text says if and only if every name that an Object had
    already where the text has an object occurs in the text there. *)
Theorem C65_shown : ∀ text j s p m cs t, document text j → within 10000 j → holds s (Some p) m cs → NoDup cs →
  (j = JNull ∧ t = TNull) ∨ (j ≠ JNull ∧ means j t) →
  ∃ s' m' cs', UnmarshalValue text s p = (s', false) ∧ holds s' (Some p) m' cs' ∧ NoDup cs' ∧ (displays m' t ↔ covered j m).
Proof.
  intros text j s p m cs t Hd Hw Hh Hn Ht. pose proof (document_valid _ _ Hd) as Hv. apply (top_tree_iff j t Hv) in Ht.
  assert (m ≠ MNil) as Hm by (by inversion Hh). rewrite (unmarshal_doc text j) by done.
  destruct (keeps_all j s p m cs Hh Hn) as (s' & cs' & Hu & Hh' & Hn' & Hc & K).
  pose proof (decode_ok j m Hm) as Hok. rewrite Ht in Hok. rewrite Hok in Hu. exists s', (decode j m).1, cs'. split_and!; try done.
  apply (shown_all j); [exact (proj1 (holds_sane_all s) _ _ _ Hh)|done|by rewrite <-Hok, <-surjective_pairing|done].
Qed.
Print Assumptions C65_shown.

(** ** Cases *)
Definition txt (x : string) : list ascii := list_ascii_of_string x.
(** A new value, and one text after the other decoded into it. *)
Definition empty_store : vstore := mkVS (mkHeap [zeroValue] []) (λ _, []) [3].
Definition after (texts : list string) : vstore := fold_left (λ s x, (UnmarshalValue (txt x) s 0).1) texts empty_store.
Definition ok_after (texts : list string) (x : string) : bool := negb (UnmarshalValue (txt x) (after texts) 0).2.
(** What value [p] shows. *)
Fixpoint show (fuel : nat) (h : heap) (op : option ptr) : tree :=
  match fuel, op with
  | S f, Some p =>
      match hvals h !! p with
      | Some v =>
          if (v_type v =? ArrayType)%N then match v_arr v with Some l => TArr (map (show f h) l) | None => TNilArr end
          else if (v_type v =? ObjectType)%N then match v_obj v with Some r => TObj (map (λ kv, (kv.1, show f h kv.2)) (map_of h (Some r))) | None => TNilObj end
          else default TNil (scalar_tree (mkValue (v_int v) (v_uint v) (v_float v) (v_ts v) (v_str v) (v_arr v) None (v_bool v) (v_type v)))
      | None => TNil
      end
  | _, _ => TNil
  end.
Definition shown_after (texts : list string) : tree := show 10 (vs_heap (after texts)) (Some 0).

(** Objects are merged, not replaced. *)
Example C65_ex_merge : shown_after ["{""a"":true}"; "{""b"":""x""}"] = TObj [("a", TBool true); ("b", TStr "x")].
Proof. reflexivity. Qed.
(** Also with an object the value does not seem to hold any more. *)
Example C65_ex_hidden : shown_after ["{""a"":true}"; """x"""] = TStr "x" ∧
  shown_after ["{""a"":true}"; """x"""; "{""b"":false}"] = TObj [("a", TBool true); ("b", TBool false)].
Proof. split; reflexivity. Qed.
(** Elements behind the length come back. *)
Example C65_ex_stale : shown_after ["[true,{""a"":true}]"; "[false]"] = TArr [TBool false] ∧
  shown_after ["[true,{""a"":true}]"; "[false]"; "[false,{""b"":true}]"] = TArr [TBool false; TObj [("a", TBool true); ("b", TBool true)]].
Proof. split; reflexivity. Qed.
(** An array that cannot be decoded is left half decoded. *)
Example C65_ex_failed : ok_after ["[true,true]"] "[false,1e309,false]" = false ∧
  shown_after ["[true,true]"; "[false,1e309,false]"] = TArr [TBool false; TBool true].
Proof. split; vm_compute; reflexivity. Qed.
(** Without objects everything is as it should be. *)
Example C65_ex_reuse : shown_after ["[true,[false,""x""],true,true]"; "[[true],[],null,""y""]"; """z"""; "[null,[true,null]]"] =
  TArr [TNil; TArr [TBool true; TNil]].
Proof. reflexivity. Qed.
(** The object is still reached through Get when its value is a string. *)
Example C65_ex_get :
  let h := vs_heap (after ["{""a"":true}"; """x"""]) in
  let h' := mkHeap (hvals h) (hmaps h ++ [ [("f", Some 0)] ]) in
  ∃ q v, Get h' (mkEvent (Some (length (hmaps h)))) "f.a" = Ok (h', Some q) ∧ hvals h' !! q = Some v ∧ scalar_tree v = Some (TBool true).
Proof. cbv zeta. exists 1. eexists. split_and!; reflexivity. Qed.

(** A value does not always hold what was decoded into it last ... *)
Theorem C65_replaces_refuted : ¬ ∀ s p text t t0 fp, rep (vs_heap s) (Some p) t0 fp → NoDup fp → says text t →
  ∃ s' fp', UnmarshalValue text s p = (s', false) ∧ rep (vs_heap s') (Some p) t fp'.
Proof.
  intros H.
  assert (document (txt "{""b"":""x""}") (JObj [("b", JStr "x")])) as Hd by (apply parse_iff; reflexivity).
  destruct (H (after ["{""a"":true}"]) 0 (txt "{""b"":""x""}") (TObj [("b", TStr "x")]) (TObj [("a", TBool true)]) [LMap 0]) as (s' & fp' & Hu & Hr).
  - change [LMap 0] with (LMap 0 :: ([] ++ [])). eapply rep_obj; [reflexivity|reflexivity|reflexivity|reflexivity|by repeat constructor|].
    apply rep_assoc_cons; [|apply rep_assoc_nil]. eapply rep_scalar; reflexivity.
  - apply NoDup_singleton.
  - exists (JObj [("b", JStr "x")]). split_and!; [done|apply within_iff; [lia|]; vm_compute; discriminate|]. right. split; [done|].
    apply means_iff; [by apply (document_valid (txt "{""b"":""x""}"))|]. reflexivity.
  - assert (s' = (UnmarshalValue (txt "{""b"":""x""}") (after ["{""a"":true}"]) 0).1) as E by (by rewrite Hu).
    inversion Hr as [|p v t Hv Hs| | | |p v r gm m fps Hv _ Hob Hg _ Ha]; subst.
    + apply scalar_tree_scalar in Hs. done.
    + vm_compute in Hv. injection Hv as <-. injection Hob as <-. vm_compute in Hg. injection Hg as <-. apply rep_assoc_keys in Ha. discriminate Ha.
Qed.
Print Assumptions C65_replaces_refuted.
(** ... other values can change that share an element with it ... *)
Definition sharing : vstore :=
  mkVS (mkHeap [mkValue 0 0 0 0 "" (Some [Some 2]) None false ArrayType; mkValue 0 0 0 0 "" (Some [Some 2]) None false ArrayType;
                mkValue 0 0 0 0 "" None None true BoolType] []) (λ _, []) [].
Theorem C65_others_refuted : ¬ ∀ s p q text t fp, p ≠ q → rep (vs_heap s) (Some q) t fp → NoDup fp → LArr p ∉ fp →
  ∃ fp', rep (vs_heap (UnmarshalValue text s p).1) (Some q) t fp'.
Proof.
  intros H. destruct (H sharing 0 1 (txt "[false]") (TArr [TBool true]) [LArr 1]) as (fp' & Hr).
  - done.
  - change [LArr 1] with (LArr 1 :: ([] ++ [])). eapply rep_arr; [reflexivity|reflexivity|reflexivity|reflexivity|].
    apply rep_list_cons; [|apply rep_list_nil]. eapply rep_scalar; reflexivity.
  - apply NoDup_singleton.
  - intros Hx. apply elem_of_list_singleton in Hx. discriminate.
  - inversion Hr as [|p v t Hv Hs| |p v ops ts fps Hv _ _ Ha Hl| |]; subst.
    + apply scalar_tree_scalar in Hs. done.
    + vm_compute in Hv. injection Hv as <-. injection Ha as <-. inversion Hl as [|op ops t ts c cs He _]; subst.
      inversion He as [|p v t Hv Hs| | | |]; subst. vm_compute in Hv. injection Hv as <-. discriminate Hs.
Qed.
Print Assumptions C65_others_refuted.
(** ... and an error does not mean that nothing changed. *)
Theorem C65_failed_refuted : ¬ ∀ s p text t fp, rep (vs_heap s) (Some p) t fp → NoDup fp → (UnmarshalValue text s p).2 = true →
  ∃ fp', rep (vs_heap (UnmarshalValue text s p).1) (Some p) t fp'.
Proof.
  intros H. destruct (H (after ["[true]"]) 0 (txt "[false,1e309]") (TArr [TBool true]) [LArr 0]) as (fp' & Hr).
  - change [LArr 0] with (LArr 0 :: ([] ++ [])). eapply rep_arr; [reflexivity|reflexivity|reflexivity|reflexivity|].
    apply rep_list_cons; [|apply rep_list_nil]. eapply rep_scalar; reflexivity.
  - apply NoDup_singleton.
  - vm_compute. reflexivity.
  - inversion Hr as [|p v t Hv Hs| |p v ops ts fps Hv _ _ Ha Hl| |]; subst.
    + apply scalar_tree_scalar in Hs. done.
    + vm_compute in Hv. injection Hv as <-. injection Ha as <-. inversion Hl as [|op ops t ts c cs He _]; subst.
      inversion He as [|p v t Hv Hs| | | |]; subst. vm_compute in Hv. injection Hv as <-. discriminate Hs.
Qed.
Print Assumptions C65_failed_refuted.

(** The hypotheses above hold of these values. *)
Example C65_ex_field : obj_field (vs_heap (after ["{""a"":true}"; """x"""])) 0 [("a", TBool true)] [LMap 0].
Proof.
  eexists _, 0, _, ([] ++ []). split_and!; [reflexivity|reflexivity|reflexivity|by repeat constructor| |done].
  apply rep_assoc_cons; [|apply rep_assoc_nil]. eapply rep_scalar; reflexivity.
Qed.
Example C65_ex_own : own (after ["[true,[false]]"]) true (Some 0) [LArr 0; LArr 1; LArr 2; LArr 3] ∧ NoDup [LArr 0; LArr 1; LArr 2; LArr 3].
Proof.
  set (s := after ["[true,[false]]"]).
  assert (∀ p, p < 4 → in_store s p ∧ v_obj (load s p) = None) as Hs.
  { intros p Hp. assert (length (hvals (vs_heap s)) = 4) as E by reflexivity. split; [unfold in_store; by rewrite E|].
    do 4 (destruct p as [|p]; [reflexivity|]). lia. }
  assert (slots s 0 = [Some 1; Some 2; None; None] ∧ slots s 1 = [] ∧ slots s 2 = [Some 3] ∧ slots s 3 = []) as (S0 & S1 & S2 & S3) by (split_and!; reflexivity).
  clearbody s.
  assert (own s true (Some 1) [LArr 1]) as H1. { apply own_val; [apply Hs; lia|intros _; apply Hs; lia|]. rewrite S1. apply own_list_nil. }
  assert (own s true (Some 3) [LArr 3]) as H3. { apply own_val; [apply Hs; lia|intros _; apply Hs; lia|]. rewrite S3. apply own_list_nil. }
  assert (own s true (Some 2) [LArr 2; LArr 3]) as H2.
  { apply own_val; [apply Hs; lia|intros _; apply Hs; lia|]. rewrite S2. exact (own_list_cons _ _ _ _ [LArr 3] [] H3 (own_list_nil _ _)). }
  split.
  - apply own_val; [apply Hs; lia|intros _; apply Hs; lia|]. rewrite S0. apply (own_list_cons _ _ _ _ [LArr 1] [LArr 2; LArr 3] H1).
    apply (own_list_cons _ _ _ _ [LArr 2; LArr 3] [] H2). exact (own_nones s true 2).
  - apply (bool_decide_unpack _). reflexivity.
Qed.
Lemma new_holds : holds empty_store (Some 0) zero_mem [LArr 0].
Proof. apply zero_holds; [unfold in_store; cbn; lia|reflexivity]. Qed.
(** Whatever has been decoded into a new value, C65_exact and C65_shown apply to it. *)
Example C65_ex_holds : ∀ texts, ∃ m cs, overs_texts (map txt texts) zero_mem m ∧ holds (after texts) (Some 0) m cs ∧ NoDup cs.
Proof.
  intros texts. destruct (C65_history (map txt texts) empty_store 0 zero_mem [LArr 0] new_holds ltac:(apply NoDup_singleton)) as (m & cs & H1 & H2 & H3 & _).
  exists m, cs. split_and!; [done| |done]. assert (∀ texts s, fold_left (λ s0 text, (UnmarshalValue text s0 0).1) (map txt texts) s =
    fold_left (λ s x, (UnmarshalValue (txt x) s 0).1) texts s) as E by (induction texts0 as [|x l IH]; intros s; [done|]; apply IH).
  unfold after. by rewrite <-E.
Qed.
(** A string whose Object has the name a: an object with that name replaces it, another one
    is merged. *)
Definition a_true : mem := Mem (mkFields 0 0 0 0 "x" false StringType) None (Some [("a", Mem (mkFields 0 0 0 0 "" true BoolType) None None)]).
Example C65_ex_covered : covered (JObj [("a", JBool false); ("b", JBool true)]) a_true ∧ ¬ covered (JObj [("b", JBool true)]) a_true ∧
  ¬ covered (JArr [JObj [("b", JBool true)]]) (Mem (mkFields 0 0 0 0 "" false NullType) (Some ([], [a_true])) None).
Proof.
  assert (¬ covered (JObj [("b", JBool true)]) a_true) as Hn.
  { unfold a_true. rewrite covered_obj. intros H. specialize (H "a" ltac:(by left)). cbn in H. apply elem_of_list_singleton in H. done. }
  split_and!; [apply cv_obj; intros k Hk; apply elem_of_list_singleton in Hk as ->; by left|done|].
  rewrite covered_arr. intros H. apply Hn. exact (H 0 _ eq_refl).
Qed.
Example C65_ex_over : over (JObj [("b", JBool true)]) a_true
  (Mem (mkFields 0 0 0 0 "x" false ObjectType) None
     (Some [("a", Mem (mkFields 0 0 0 0 "" true BoolType) None None); ("b", Mem (mkFields 0 0 0 0 "" true BoolType) None None)])) true.
Proof.
  apply over_iff; [|apply sn_mem|done|reflexivity].
  - apply (document_valid (txt "{""b"":true}")). apply parse_iff. reflexivity.
  - intros x Hx. by apply elem_of_nil in Hx.
  - split; [apply List.Forall_nil|done].
Qed.
