(** * The same definition in JSON and in YAML.

    Definitions are read from JSON by the C library and by Config's UnmarshalJSON
    (pkg/pipeline/config.go:63-85), from YAML by cmd/sawmill; this file relates the two
    readings of a JSON text, which YAML reads as well. *)
From Verif Require Export ConfigMeaning Yaml.
From Coq Require Import Lia.
Local Open Scope Z_scope.

(** ** Specification *)
(** The nodes YAML makes of JSON values: strings and names are strings, a number without
    fraction and exponent is an integer if it fits, any other number a double. *)
Inductive yaml_number (neg : bool) (m e : Z) : yleaf → Prop :=
| yn_int z : e = 0 → z = (if neg then - m else m) → yaml_number neg m e (LInt z)
| yn_uint z : e = 0 → z = (if neg then - m else m) → yaml_number neg m e (LUint z)
| yn_float b : double_for neg m e b → yaml_number neg m e (LFloat b).
Inductive as_yaml : json → ynode → Prop :=
| ay_null t : as_yaml JNull (YLeaf t LNull)
| ay_bool t b : as_yaml (JBool b) (YLeaf t (LBool b))
| ay_num t neg m e v : yaml_number neg m e v → as_yaml (JNum neg m e) (YLeaf t v)
| ay_str s : as_yaml (JStr s) (YLeaf s LStr)
| ay_arr l ns : Forall2 as_yaml l ns → as_yaml (JArr l) (YSeq ns)
| ay_obj m ns : Forall2 (λ kj kn, kn.1 = YLeaf kj.1 LStr ∧ as_yaml kj.2 kn.2) m ns → as_yaml (JObj m) (YMap ns).
(** No object has a name twice, nor a name that JSON takes for a field's although it is
    spelled differently. *)
Definition own_spelling (k : string) : Prop :=
  ∀ f, f ∈ ["id"; "description"; "if"; "processors"; "on_failure"] → names_field f k → k = f.
Inductive tidy : json → Prop :=
| td_null : tidy JNull
| td_bool b : tidy (JBool b)
| td_num neg m e : tidy (JNum neg m e)
| td_str s : tidy (JStr s)
| td_arr l : Forall tidy l → tidy (JArr l)
| td_obj m : NoDup (map fst m) → Forall (λ kj, own_spelling kj.1 ∧ tidy kj.2) m → tidy (JObj m).
(** Options that are the same, up to the type of integers: JSON makes the nearest double of
    them. *)
Inductive same_data : tree → yval → Prop :=
| sd_nil : same_data TNil VNil
| sd_bool b : same_data (TBool b) (VBool b)
| sd_float b : same_data (TFloat b) (VFloat b)
| sd_int neg m b : double_for neg m 0 b → same_data (TFloat b) (VInt (if neg then - m else m))
| sd_uint neg m b : double_for neg m 0 b → same_data (TFloat b) (VUint (if neg then - m else m))
| sd_str s : same_data (TStr s) (VStr s)
| sd_list ts vs : Forall2 same_data ts vs → same_data (TArr ts) (VList vs)
| sd_map fs gs : Forall2 (λ kt kv, kt.1 = kv.1 ∧ same_data kt.2 kv.2) fs gs → same_data (TObj fs) (VMap gs).
Definition same_options : cfgmap → ymap → Prop := Forall2 (λ kt kv, kt.1 = kv.1 ∧ same_data kt.2 kv.2).
Inductive same_block : ocfg → yocfg → Prop :=
| sb_block id cond onf onf' cfg cfg' :
    Forall2 (Forall2 (λ ko ko', ko.1 = ko'.1 ∧ option_Forall2 same_block ko.2 ko'.2)) onf onf' →
    same_options cfg cfg' → same_block (OptCfg id cond onf cfg) (OptCfg id cond onf' cfg').
Definition same_procs : list pcfg → list ypcfg → Prop :=
  Forall2 (Forall2 (λ ko ko', ko.1 = ko'.1 ∧ option_Forall2 same_block ko.2 ko'.2)).
Definition same_config (c : config cfgmap) (c' : config ymap) : Prop :=
  cf_id c = cf_id c' ∧ cf_desc c = cf_desc c' ∧ same_procs (cf_procs c) (cf_procs c') ∧ same_procs (cf_onf c) (cf_onf c').

(** ** Proofs *)
Lemma mset_Forall2 {A B} (R : A → B → Prop) k a b (fs : list (string * A)) (gs : list (string * B)) : R a b →
  Forall2 (λ x y, x.1 = y.1 ∧ R x.2 y.2) fs gs → Forall2 (λ x y, x.1 = y.1 ∧ R x.2 y.2) (mset k a fs) (mset k b gs).
Proof.
  intros Hab. induction 1 as [|[k1 a1] [k2 b1] fs gs [E H] HF IH]; [by repeat constructor|].
  cbn [fst snd] in *. subst k2. cbn [mset]. destruct (String.compare k k1); by repeat constructor.
Qed.
Lemma mof_list_Forall2 {A B} (R : A → B → Prop) (fs : list (string * A)) (gs : list (string * B)) :
  Forall2 (λ x y, x.1 = y.1 ∧ R x.2 y.2) fs gs → Forall2 (λ x y, x.1 = y.1 ∧ R x.2 y.2) (mof_list fs) (mof_list gs).
Proof.
  unfold mof_list. assert (Forall2 (λ (x : string * A) (y : string * B), x.1 = y.1 ∧ R x.2 y.2) [] []) as H0 by constructor.
  revert H0. generalize (@nil (string * A)) (@nil (string * B)). intros l0 l0' H0 H. revert l0 l0' H0.
  induction H as [|[k1 a1] [k2 b1] fs gs [E H] HF IH]; intros l0 l0' H0; [done|].
  cbn [fst snd] in *. subst k2. cbn [fold_left]. apply IH. by apply mset_Forall2.
Qed.
Lemma tidy_arr l : tidy (JArr l) → Forall tidy l.
Proof. by inversion 1. Qed.
Lemma tidy_obj m : tidy (JObj m) → NoDup (map fst m) ∧ Forall (λ kj, own_spelling kj.1 ∧ tidy kj.2) m.
Proof. by inversion 1. Qed.
Definition node_for (kj : string * json) (kn : ynode * ynode) : Prop := kn.1 = YLeaf kj.1 LStr ∧ as_yaml kj.2 kn.2.
Lemma distinct_names m ns : NoDup (map fst m) → Forall2 node_for m ns → distinct_keys ns.
Proof.
  intros Hd HF. revert Hd. induction HF as [|[k j] [kn n] m ns [H1 _] HF IH]; intros Hd.
  { intros i j kn kn' H. by rewrite lookup_nil in H. }
  cbn [map] in Hd. apply NoDup_cons in Hd as [Hk Hd]. cbn [fst] in H1. subst kn. apply distinct_cons. split; [|by apply IH].
  intros k' n' Hin Ha. apply elem_of_list_lookup in Hin as [i Hi].
  destruct (Forall2_lookup_r _ _ _ _ _ HF Hi) as ([k2 j2] & Hi' & E & _). cbn [fst] in E. subst k'. inversion Ha; subst.
  apply Hk. apply elem_of_list_fmap. exists (k2, j2). split; [done|]. by eapply elem_of_list_lookup_2.
Qed.
Lemma later_as_map {A} (ts : list (string * A)) fs : later_wins ts fs → fs = mof_list ts.
Proof. intros H. eapply later_wins_unique; [exact H|apply mof_list_later]. Qed.
Definition value_fine (j : json) : Prop := jvalid j → ∀ n t, as_yaml j n → tidy j → means j t → ∃ v, shows n v ∧ same_data t v.
Lemma same_values l : Forall value_fine l → Forall jvalid l → Forall tidy l → ∀ ns ts, Forall2 as_yaml l ns → Forall2 means l ts →
  ∃ vs, Forall2 shows ns vs ∧ Forall2 same_data ts vs.
Proof.
  induction 1 as [|x l Hx _ IH]; intros Hv Ht ns ts HA HB.
  { inversion HA; subst. inversion HB; subst. exists []. split; constructor. }
  inversion HA as [|? n ? ns' A1 A2]; subst. inversion HB as [|? t ? ts' B1 B2]; subst.
  inversion Ht as [|? ? Htx Htl]; subst. inversion Hv as [|? ? Hvx Hvl]; subst.
  destruct (Hx Hvx _ _ A1 Htx B1) as (v & ? & ?). destruct (IH Hvl Htl _ _ A2 B2) as (vs & ? & ?). exists (v :: vs). by split; constructor.
Qed.
Lemma same_entries m : Forall (λ kj, value_fine kj.2) m → Forall (λ kj, jvalid kj.2) m → Forall (λ kj, tidy kj.2) m →
  ∀ ns ts, Forall2 node_for m ns → Forall2 (λ kj kt, kj.1 = kt.1 ∧ means kj.2 kt.2) m ts →
  ∃ es, Forall2 (λ kn fv, kn.1 = YLeaf fv.1 LStr ∧ shows kn.2 fv.2) ns es ∧ Forall2 (λ kt kv, kt.1 = kv.1 ∧ same_data kt.2 kv.2) ts es.
Proof.
  induction 1 as [|[k x] l Hx _ IH]; intros Hv Ht ns ts HA HB.
  { inversion HA; subst. inversion HB; subst. exists []. split; constructor. }
  inversion HA as [|? [kn n] ? ns' [A0 A1] A2]; subst. inversion HB as [|? [kt t] ? ts' [B0 B1] B2]; subst.
  inversion Ht as [|? ? Htx Htl]; subst. inversion Hv as [|? ? Hvx Hvl]; subst. cbn [fst snd] in *. subst kn kt.
  destruct (Hx Hvx _ _ A1 Htx B1) as (v & ? & ?). destruct (IH Hvl Htl _ _ A2 B2) as (es & ? & ?). exists ((k, v) :: es). by split; constructor.
Qed.
Lemma jvalid_values m : jvalid (JObj m) → Forall (λ kj, jvalid kj.2) m.
Proof. intros H. apply jvalid_obj in H. eapply Forall_impl; [exact H|]. by intros kj [_ ?]. Qed.
Lemma tidy_values m : tidy (JObj m) → Forall (λ kj, tidy kj.2) m.
Proof. intros [_ H]%tidy_obj. eapply Forall_impl; [exact H|]. by intros kj [_ ?]. Qed.
Lemma same_value j : value_fine j.
Proof.
  induction j as [|b|neg m e|s|l IH|m IH] using json_ind'; intros Hv n t Hn Ht Hm.
  - inversion Hn; subst; inversion Hm; subst. eexists. split; constructor.
  - inversion Hn; subst; inversion Hm; subst. eexists. split; constructor.
  - inversion Hn as [| |? ? ? ? v Hy| | |]; subst; inversion Hm as [| |? ? ? b Hb| | |]; subst. inversion Hy as [z|z|b' Hb']; subst.
    + eexists. split; [constructor|]. by apply sd_int.
    + eexists. split; [constructor|]. by apply sd_uint.
    + apply (double_for_iff _ _ _ _ Hv) in Hb, Hb'. assert (b = b') as <- by congruence. eexists. split; constructor.
  - inversion Hn; subst; inversion Hm; subst. eexists. split; constructor.
  - inversion Hn as [| | | |? ns HA|]; subst; inversion Hm as [| | | |? ts HB|]; subst. apply tidy_arr in Ht. apply jvalid_arr in Hv.
    destruct (same_values l IH Hv Ht ns ts HA HB) as (vs & ? & ?). exists (VList vs). by split; constructor.
  - inversion Hn as [| | | | |? ns HA]; subst; inversion Hm as [| | | | |? ts fs HB HC]; subst.
    pose proof (tidy_obj _ Ht) as [Hd _]. pose proof (distinct_names m ns Hd HA) as Hdk.
    destruct (same_entries m IH (jvalid_values _ Hv) (tidy_values _ Ht) ns ts HA HB) as (es & H1 & H2).
    apply later_as_map in HC. subst fs. exists (VMap (mof_list es)). split.
    + eapply sh_map; [done|exact H1|]. apply as_map_iff; [|done]. exact (string_keys_NoDup ns es (λ kn fv, shows kn.2 fv.2) Hdk H1).
    + constructor. by apply mof_list_Forall2.
Qed.

(** Fields. *)
Lemma own_lower k f : own_spelling k → f ∈ ["id"; "description"; "if"; "processors"; "on_failure"] → lower k = f ↔ k = f.
Proof.
  intros Ho Hf. destruct letters_names as (L1 & L2 & L3 & L4 & L5).
  assert (letters (list_ascii_of_string f)) as L by (rewrite !elem_of_cons, elem_of_nil in Hf; naive_solver).
  rewrite <- (names_iff f k L). split; [by apply Ho|]. intros ->. apply names_iff; [done|].
  rewrite !elem_of_cons, elem_of_nil in Hf. destruct Hf as [->|[->|[->|[->|[->|[]]]]]]; reflexivity.
Qed.
Notation fields5 := ["id"; "description"; "if"; "processors"; "on_failure"] (only parsing).
(** The value of a field in a tidy object and its node. *)
Lemma field_once f m ns : f ∈ fields5 → NoDup (map fst m) → Forall (λ kj, own_spelling kj.1 ∧ tidy kj.2) m → Forall2 node_for m ns →
  (occ f m = [] ∧ field f ns = None) ∨ (∃ j n, occ f m = [j] ∧ field f ns = Some n ∧ as_yaml j n ∧ (f, j) ∈ m).
Proof.
  intros Hf Hd Ht HF. revert Hd Ht. induction HF as [|[k j] [kn n] m ns [A1 A2] HF IH]; intros Hd Ht; [by left|].
  cbn [fst snd] in *. subst kn. cbn [map] in Hd. apply NoDup_cons in Hd as [Hk Hd]. inversion Ht as [|? ? [Ho _] Ht']; subst. cbn [fst] in Ho, Hk.
  rewrite occ_cons. pose proof (own_lower k f Ho Hf) as Hl. destruct (String.eqb_spec (lower k) f) as [E|E].
  - apply Hl in E as ->. right. exists j, n. rewrite field_named by (exists LStr; done). split_and!; [|done|done|left].
    destruct (IH Hd Ht') as [[-> _]|(j' & n' & _ & _ & _ & Hin)]; [done|]. exfalso. apply Hk. apply elem_of_list_fmap. by exists (f, j').
  - rewrite field_other by (intros (v & _ & [= ->]); by apply E, Hl).
    destruct (IH Hd Ht') as [H|(j' & n' & H1 & H2 & H3 & Hin)]; [by left|]. right. exists j', n'. split_and!; [done..|by right].
Qed.
Lemma same_text f m ns s : f ∈ fields5 → NoDup (map fst m) → Forall (λ kj, own_spelling kj.1 ∧ tidy kj.2) m → Forall2 node_for m ns →
  dec_string (occ f m) "" = Some s → text_given f ns s.
Proof.
  intros Hf Hd Ht HF H. apply text_iff; [by eapply distinct_names|]. unfold text_at.
  destruct (field_once f m ns Hf Hd Ht HF) as [[E1 E2]|(j & n & E1 & E2 & Ha & _)]; rewrite E1 in H; rewrite E2; cbn [dec_string] in H; [congruence|].
  destruct j; try done; inversion Ha; subst; cbn [decode_text]; congruence.
Qed.

(** Blocks. *)
Definition same_member (ko : string * option ocfg) (ko' : string * option yocfg) : Prop := ko.1 = ko'.1 ∧ option_Forall2 same_block ko.2 ko'.2.
Definition block_same (j : json) : Prop := ∀ n c, as_yaml j n → tidy j → jvalid j → j ≠ JNull → opt_of_json j = Some c →
  ∃ c', decode_block n = Some c' ∧ same_block c c'.
Lemma null_yaml j n : as_yaml j n → j = JNull ↔ ∃ t, n = YLeaf t LNull.
Proof.
  destruct 1 as [t|t b|t neg m e v Hy|s|l ns|m ns]; (split; [try done|intros (t' & E); try done]).
  - eauto.
  - injection E as _ ->. inversion Hy.
Qed.
Lemma same_members m : Forall (λ kj, block_same kj.2) m → Forall (λ kj, jvalid kj.2) m → Forall (λ kj, tidy kj.2) m →
  ∀ ns es, Forall2 node_for m ns → osequence (map dec_entry m) = Some es →
  ∃ es', decode_members decode_block ns = Some es' ∧ Forall2 same_member es es'.
Proof.
  induction 1 as [|[k j] m Hj _ IH]; intros Hv Ht ns es HA HB.
  { inversion HA; subst. injection HB as <-. exists []. split; constructor. }
  inversion HA as [|? [kn n] ? ns' [A0 A1] A2]; subst. inversion Ht as [|? ? Htx Htl]; subst. inversion Hv as [|? ? Hvx Hvl]; subst.
  cbn [fst snd] in *. subst kn. cbn [map osequence] in HB. destruct (dec_entry (k, j)) as [e|] eqn:Ee; [|done].
  destruct (osequence (map dec_entry m)) as [es1|] eqn:E1; [|done]. injection HB as <-.
  destruct (IH Hvl Htl ns' es1 A2 eq_refl) as (es' & E2 & F). pose proof (null_yaml j n A1) as Hnull.
  assert (j = JNull ∨ j ≠ JNull) as [->|Hn] by (destruct j; auto).
  - destruct (proj1 Hnull eq_refl) as [t ->]. cbn in Ee. injection Ee as <-. exists ((k, None) :: es'). cbn [decode_members]. fold (decode_members decode_block). rewrite E2.
    split; [done|]. constructor; [|done]. split; [done|constructor].
  - assert (∃ c, opt_of_json j = Some c ∧ e = (k, Some c)) as (c & Hc & ->).
    { unfold dec_entry in Ee. destruct j; try done; destruct (opt_of_json _) as [c|] in Ee |- *; try done; injection Ee as <-; eauto. }
    destruct (Hj n c A1 Htx Hvx Hn Hc) as (c' & Hc' & Hs). exists ((k, Some c') :: es'). split.
    + assert (decode_members decode_block ((YLeaf k LStr, n) :: ns') = match decode_block n, decode_members decode_block ns' with Some c, Some es => Some ((k, Some c) :: es) | _, _ => None end) as ->.
      { destruct n as [t []| |]; try done. }
      by rewrite Hc', E2.
    + constructor; [|done]. split; [done|by constructor].
Qed.
Definition deep_same (j : json) : Prop := block_same j ∧
  (∀ l, j = JArr l → Forall (λ p, ∀ m, p = JObj m → Forall (λ kj, block_same kj.2) m) l) ∧
  (∀ m, j = JObj m → Forall (λ kj, block_same kj.2) m).
Definition from_slval (x : option pcfg) : pcfg := match x with None => [] | Some es => mof_list es end.
Lemma slice_of_some l : slice_of [Some l] = map from_slval l.
Proof.
  destruct l as [|x l]; [done|]. unfold slice_of. cbn [fold_left slice_write fst].
  assert (∀ l, over l [] = map from_slval l) as H.
  { clear. induction l as [|p l IH]; [done|]. cbn [map over hd tl]. by rewrite IH. }
  rewrite H. apply firstn_all2. by rewrite map_length.
Qed.
Lemma same_proc p n x : (∀ m, p = JObj m → Forall (λ kj, block_same kj.2) m) → as_yaml p n → tidy p → jvalid p → dec_proc p = Some x →
  ∃ x', decode_proc decode_block n = Some x' ∧ Forall2 same_member (from_slval x) x'.
Proof.
  intros Hp Ha Ht Hv E. destruct p as [| | | | |m]; try done; inversion Ha as [| | | | |? ns HA]; subst.
  - injection E as <-. exists []. split; [done|constructor].
  - cbn [dec_proc] in E. destruct (osequence (map dec_entry m)) as [es|] eqn:Ee; [|done]. injection E as <-.
    destruct (same_members m (Hp m eq_refl) (jvalid_values _ Hv) (tidy_values _ Ht) ns es HA Ee) as (es' & E' & F).
    exists (mof_list es'). cbn [decode_proc from_slval]. pose proof (tidy_obj _ Ht) as [Hd _].
    rewrite (proj2 (repeated_iff ns) (distinct_names m ns Hd HA)), E'. split; [done|]. by apply mof_list_Forall2.
Qed.
Lemma same_list f m ns onf : f ∈ fields5 → NoDup (map fst m) → Forall (λ kj, own_spelling kj.1 ∧ tidy kj.2) m → Forall2 node_for m ns →
  Forall (λ kj, jvalid kj.2) m → Forall (λ kj, deep_same kj.2) m →
  dec_onf (occ f m) = Some onf → ∃ onf', list_given f ns onf' ∧ same_procs onf onf'.
Proof.
  intros Hf Hd Ht HF Hv Hs H.
  assert (∃ onf', list_at f ns [] onf' ∧ same_procs onf onf') as (onf' & H1 & H2).
  2: { exists onf'. split; [|done]. apply list_iff; [by eapply distinct_names|by intros; apply block_all|done]. }
  unfold list_at. destruct (field_once f m ns Hf Hd Ht HF) as [[E1 E2]|(j & n & E1 & E2 & Ha & Hin)]; rewrite E1 in H; rewrite E2.
  - cbn in H. injection H as <-. exists []. split; [done|constructor].
  - rewrite Forall_forall in Hv, Hs, Ht. specialize (Hv _ Hin). specialize (Hs _ Hin). destruct (Ht _ Hin) as [_ Htj]. cbn [snd] in *.
    unfold dec_onf in H. cbn [map osequence] in H. destruct (dec_procs j) as [v|] eqn:Ev; [|done]. injection H as <-.
    destruct j as [| | | |l|]; try done; inversion Ha as [| | | |? ns' HA|]; subst.
    + injection Ev as <-. exists []. split; [done|constructor].
    + cbn [dec_procs] in Ev. destruct (osequence (map dec_proc l)) as [xs|] eqn:Ex; [|done]. injection Ev as <-. rewrite slice_of_some.
      destruct Hs as (_ & Hs & _). specialize (Hs l eq_refl). apply tidy_arr in Htj. apply jvalid_arr in Hv. cbn [decode_procs].
      clear -HA Ex Hs Htj Hv. revert xs ns' HA Ex. induction Hs as [|p l Hp _ IH]; intros xs ns' HA Ex.
      { inversion HA; subst. injection Ex as <-. exists []. split; constructor. }
      inversion HA as [|? n ? ns1 A1 A2]; subst. inversion Htj as [|? ? Htx Htl]; subst. inversion Hv as [|? ? Hvx Hvl]; subst.
      cbn [map osequence] in Ex. destruct (dec_proc p) as [x|] eqn:Ep; [|done]. destruct (osequence (map dec_proc l)) as [xs1|]; [|done]. injection Ex as <-.
      destruct (same_proc p n x Hp A1 Htx Hvx Ep) as (x' & E1 & F1). destruct (IH Hvl Htl xs1 ns1 A2 eq_refl) as (onf' & E2 & F2).
      exists (x' :: onf'). cbn [map osequence]. rewrite E1, E2. split; [done|]. by constructor.
Qed.
Lemma same_options_given m : Forall (λ kj, jvalid kj.2) m → Forall (λ kj, tidy kj.2) m → ∀ ns raw, Forall2 node_for m ns → fields_of_json m = Some raw →
  ∃ es, options_given ["id"; "if"; "on_failure"] ns es ∧
    Forall2 (λ kt kv, kt.1 = kv.1 ∧ same_data kt.2 kv.2) (List.filter (λ kt : string * tree, negb (bool_decide (kt.1 ∈ ["id"; "if"; "on_failure"]))) raw) es ∧
    map fst raw = map fst m.
Proof.
  intros Hv Ht ns raw HA HB. apply osequence_pairs in HB. revert ns raw HA HB. induction m as [|[k j] m IH]; intros ns raw HA HB.
  { inversion HA; subst. inversion HB; subst. exists []. split_and!; constructor. }
  inversion HA as [|? [kn n] ? ns' [A0 A1] A2]; subst. inversion HB as [|? [kt t] ? ts' [B0 B1] B2]; subst.
  inversion Ht as [|? ? Htx Htl]; subst. inversion Hv as [|? ? Hvx Hvl]; subst. cbn [fst snd] in *. subst kn kt.
  destruct (IH Hvl Htl ns' ts' A2 B2) as (es & O & F & N). cbn [List.filter map fst]. rewrite N.
  destruct (decide (k ∈ ["id"; "if"; "on_failure"])) as [Hk|Hk].
  - rewrite (bool_decide_eq_true_2 _ Hk). cbn [negb]. exists es. split_and!; [|done|done]. apply (og_field _ _ k); [by exists LStr|done|done].
  - rewrite (bool_decide_eq_false_2 _ Hk). cbn [negb]. apply means_iff in B1; [|done]. destruct (same_value j Hvx n t A1 Htx B1) as (v & H1 & H2).
    exists ((k, v) :: es). split_and!; [|by constructor|done]. apply (og_option _ _ k); [by exists LStr|done|done|done].
Qed.
Lemma mdel_mof_list (raw : list (string * tree)) : NoDup (map fst raw) →
  mdel "on_failure" (mdel "if" (mdel "id" (mof_list raw))) =
  mof_list (List.filter (λ kt : string * tree, negb (bool_decide (kt.1 ∈ ["id"; "if"; "on_failure"]))) raw).
Proof.
  intros Hd. symmetry. apply cfg_iff; [apply msorted_mof_list|]. split; [apply msorted_mof_list|]. intros k t.
  assert (∀ l : list (string * tree), NoDup (map fst l) → (k, t) ∈ mof_list l ↔ (k, t) ∈ l) as Hin.
  { intros l Hl. destruct (proj2 (as_map_iff l (mof_list l) Hl) eq_refl) as [HP _]. symmetry. by apply elem_of_Permutation_proper. }
  rewrite !Hin; [|done|].
  - rewrite !elem_of_list_In, filter_In. cbn [fst]. rewrite negb_true_iff, bool_decide_eq_false, !elem_of_cons, elem_of_nil. tauto.
  - clear Hin. induction raw as [|[k' t'] raw IH]; [done|]. cbn [map] in Hd. apply NoDup_cons in Hd as [Hk Hd]. cbn [List.filter].
    destruct (negb _); [|by apply IH]. cbn [map]. apply NoDup_cons. split; [|by apply IH]. intros Hi. apply Hk.
    apply elem_of_list_fmap in Hi as (x & -> & Hx). apply elem_of_list_fmap. exists x. split; [done|].
    apply elem_of_list_In, filter_In in Hx as [Hx _]. by apply elem_of_list_In.
Qed.
Lemma same_block_obj m : Forall (λ kj, deep_same kj.2) m → block_same (JObj m).
Proof.
  intros Hs n c Ha Ht Hv _ H. inversion Ha as [| | | | |? ns HA]; subst. rewrite opt_of_json_obj in H.
  destruct (dec_string (occ "id" m) "") as [id|] eqn:E1; [|done]. destruct (dec_string (occ "if" m) "") as [cond|] eqn:E2; [|done].
  destruct (dec_onf (occ "on_failure" m)) as [onf|] eqn:E3; [|done]. destruct (fields_of_json m) as [raw|] eqn:E4; [|done]. injection H as <-.
  pose proof (tidy_obj _ Ht) as [Hd Htm]. pose proof (distinct_names m ns Hd HA) as Hdk.
  apply (same_text "id" m ns) in E1; [|rewrite !elem_of_cons; tauto|done..]. apply (same_text "if" m ns) in E2; [|rewrite !elem_of_cons; tauto|done..].
  destruct (same_list "on_failure" m ns onf) as (onf' & L1 & L2); [rewrite !elem_of_cons; tauto|done|done|done|by apply jvalid_values|done|done|].
  destruct (same_options_given m (jvalid_values _ Hv) (tidy_values _ Ht) ns raw HA E4) as (es & O & F & N).
  exists (OptCfg id cond onf' (mof_list es)). split.
  - apply block_all. apply (bs_block ns id cond onf' es); try done. apply as_map_iff; [by eapply options_NoDup|done].
  - constructor; [exact L2|]. rewrite mdel_mof_list by (by rewrite N). by apply mof_list_Forall2.
Qed.
Lemma deep_all j : deep_same j.
Proof.
  induction j as [|b|neg m e|s|l IH|m IH] using json_ind'; unfold deep_same.
  - split_and!; [|done|done]. by intros n c _ _ _ H.
  - split_and!; [|done|done]. by intros n c _ _ _ _.
  - split_and!; [|done|done]. by intros n c _ _ _ _.
  - split_and!; [|done|done]. by intros n c _ _ _ _.
  - split_and!; [by intros n c _ _ _ _| |done]. intros ? [= <-]. eapply Forall_impl; [exact IH|]. by intros p (_ & _ & H).
  - split_and!; [by apply same_block_obj|done|]. intros ? [= <-]. eapply Forall_impl; [exact IH|]. by intros kj (H & _).
Qed.
Lemma same_definition j n c : as_yaml j n → tidy j → jvalid j → j ≠ JNull → config_of_json j = Some c →
  ∃ c', decode_config n = Some (Some c') ∧ same_config c c'.
Proof.
  intros Ha Ht Hv Hn H. destruct j as [| | | | |m]; try done. inversion Ha as [| | | | |? ns HA]; subst. cbn [config_of_json] in H.
  destruct (dec_string (occ "id" m) "") as [id|] eqn:E1; [|done]. destruct (dec_string (occ "description" m) "") as [desc|] eqn:E2; [|done].
  destruct (dec_onf (occ "processors" m)) as [ps|] eqn:E3; [|done]. destruct (dec_onf (occ "on_failure" m)) as [onf|] eqn:E4; [|done]. injection H as <-.
  pose proof (tidy_obj _ Ht) as [Hd Htm]. pose proof (distinct_names m ns Hd HA) as Hdk.
  assert (Forall (λ kj, deep_same kj.2) m) as Hs by (apply Forall_forall; intros; apply deep_all).
  apply (same_text "id" m ns) in E1; [|rewrite !elem_of_cons; tauto|done..]. apply (same_text "description" m ns) in E2; [|rewrite !elem_of_cons; tauto|done..].
  destruct (same_list "processors" m ns ps) as (ps' & L1 & L2); [rewrite !elem_of_cons; tauto|done|done|done|by apply jvalid_values|done|done|].
  destruct (same_list "on_failure" m ns onf) as (onf' & L3 & L4); [rewrite !elem_of_cons; tauto|done|done|done|by apply jvalid_values|done|done|].
  exists (mkConfig id desc ps' onf'). split; [|done]. apply config_iff, ds_def; try done.
  intros k x Hin. apply elem_of_list_lookup in Hin as [i Hi]. destruct (Forall2_lookup_r _ _ _ _ _ HA Hi) as ([k' j'] & _ & E & _). cbn [fst] in E. eauto.
Qed.
