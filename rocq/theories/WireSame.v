(** * Messages equal up to the order of map entries *)
From Verif Require Export WireOut.
Local Open Scope Z_scope.

(** ** Specification *)
Inductive osame {A} (R : A → A → Prop) : option A → option A → Prop :=
| os_none : osame R None None
| os_some x y : R x y → osame R (Some x) (Some y).
Definition leaf {A} (k : pkind A) : bool :=
  match k with KArray (Some _) | KObject (Some _) => false | _ => true end.
(** Two maps with the same keys and, at each key, related values. *)
Definition objsame {A} (R : A → A → Prop) (o o' : pobj A) : Prop :=
  (∀ key, osame (osame R) (mget key (po_fields o)) (mget key (po_fields o'))) ∧ po_unrec o = po_unrec o'.
Definition arrsame {A} (R : A → A → Prop) (a a' : parr A) : Prop :=
  Forall2 (osame R) (pa_items a) (pa_items a') ∧ pa_unrec a = pa_unrec a'.
Inductive ksame {A} (R : A → A → Prop) : pkind A → pkind A → Prop :=
| ks_leaf k : leaf k = true → ksame R k k
| ks_arr a a' : arrsame R a a' → ksame R (KArray (Some a)) (KArray (Some a'))
| ks_obj o o' : objsame R o o' → ksame R (KObject (Some o)) (KObject (Some o')).
Inductive psame : pval → pval → Prop :=
| ps_same k k' u : ksame psame k k' → psame (PVal k u) (PVal k' u).
Definition logsame (l l' : plog) : Prop :=
  osame (objsame psame) (lg_object l) (lg_object l') ∧ lg_unrec l = lg_unrec l'.
Definition wsame (m m' : pwrapper) : Prop :=
  osame (osame logsame) (mw_log m) (mw_log m') ∧ mw_unrec m = mw_unrec m'.

(** ** Proofs *)
Lemma mget_mof_list {A} k (l : list (string * A)) : NoDup (map fst l) → mget k (mof_list l) = mget k l.
Proof.
  intros Hnd. unfold mof_list. destruct (decide (k ∈ map fst l)) as [Hin|Hni].
  - apply elem_of_list_fmap in Hin as ([k' v] & -> & Hin). simpl.
    rewrite (mget_fold_mset_in _ v); [|done|by apply elem_of_list_In].
    induction l as [|[k2 v2] l IH]; [by apply elem_of_nil in Hin|]. simpl in *.
    apply NoDup_cons in Hnd as [Hn Hnd].
    apply elem_of_cons in Hin as [Heq|Hin]; [simplify_eq; by rewrite String.eqb_refl|].
    rewrite (proj2 (String.eqb_neq _ _)); [auto|].
    intros ->. apply Hn. apply elem_of_list_fmap. by exists (k2, v).
  - rewrite mget_fold_mset_notin.
    + symmetry. rewrite mget_None_In. intros Hin. apply Hni. by apply elem_of_list_In.
    + intros Hin. apply Hni. by apply elem_of_list_In.
Qed.

Lemma mget_map_entry (f : pval → pval) k (l : list (string * option pval)) :
  mget k (map (λ kv, (kv.1, option_map f kv.2)) l) = option_map (option_map f) (mget k l).
Proof. induction l as [|[k' x] l IH]; simpl; [done|]. by destruct (String.eqb k k'). Qed.

Lemma keys_map_entry (f : pval → pval) (l : list (string * option pval)) :
  map fst (map (λ kv, (kv.1, option_map f kv.2)) l) = map fst l.
Proof. rewrite map_map. done. Qed.

Lemma canon_obj_same (P : pval → Prop) o o' :
  NoDup (map fst (po_fields o)) → NoDup (map fst (po_fields o')) →
  obj_all (λ v, ∀ v', wf_value v → wf_value v' → psame v v' → canon v = canon v') o →
  obj_all wf_value o → obj_all wf_value o' →
  objsame psame o o' → canon_obj o = canon_obj o'.
Proof.
  destruct o as [f u], o' as [f' u']. simpl. intros Hn Hn' HI Hw Hw' [Hf Hu]. simpl in *. subst u'.
  unfold canon_obj. simpl. f_equal.
  apply gomap_ext; [apply msorted_mof_list|apply msorted_mof_list|]. intros k.
  rewrite !mget_mof_list by (by rewrite keys_map_entry).
  rewrite !mget_map_entry. specialize (Hf k).
  destruct (mget k f) as [x|] eqn:E, (mget k f') as [y|] eqn:E'; inversion Hf as [|? ? Hxy]; subst; [|done].
  simpl. f_equal. apply mget_Some_In in E, E'.
  rewrite Forall_forall in HI, Hw, Hw'.
  specialize (HI _ (proj2 (elem_of_list_In _ _) E)). specialize (Hw _ (proj2 (elem_of_list_In _ _) E)).
  specialize (Hw' _ (proj2 (elem_of_list_In _ _) E')). simpl in *.
  inversion Hxy as [|v w Hvw]; subst; [done|]. simpl in *. f_equal. auto.
Qed.

Lemma canon_psame v : ∀ v', wf_value v → wf_value v' → psame v v' → canon v = canon v'.
Proof.
  induction v as [k u IH] using pval_ind'. intros v' Hw Hw' Hs.
  inversion Hs as [? k' ? Hk]; subst. clear Hs.
  destruct Hw as (_ & Hsh & Hw). destruct Hw' as (_ & Hsh' & Hw').
  rewrite kind_each_all in Hw, Hw'. cbn [canon].
  inversion Hk as [? Hl|a a' [Ha Hu]|o o' Ho]; subst; [done| |].
  - destruct a as [items ua], a' as [items' ua']. simpl in *. subst ua'.
    enough (map (option_map canon) items = map (option_map canon) items') as -> by done.
    clear Hk Hsh Hsh'.
    induction Ha as [|x y items items' Hxy Ha IHa]; [done|].
    apply Forall_cons in IH as [Hx IH]. apply Forall_cons in Hw as [Hwx Hw]. apply Forall_cons in Hw' as [Hwy Hw'].
    simpl. f_equal; [|auto].
    inversion Hxy; subst; [done|]. simpl in *. f_equal. auto.
  - pose proof (canon_obj_same (λ _, True) o o' (proj1 Hsh) (proj1 Hsh') IH Hw Hw' Ho) as H.
    simpl. unfold canon_obj in H. by rewrite H.
Qed.

Lemma osame_refl {A} (R : A → A → Prop) x : (∀ a, x = Some a → R a a) → osame R x x.
Proof. destruct x; intros H; constructor; auto. Qed.

Lemma psame_canon v : wf_value v → psame v (canon v).
Proof.
  induction v as [k u IH] using pval_ind'. intros (_ & Hsh & Hw).
  rewrite kind_each_all in Hw. cbn [canon]. constructor.
  destruct k as [|z|[[items ua]|]|b|v|z|[[fields uo]|]|[s|]|z|z]; simpl in *; try (by constructor).
  - apply ks_arr. split; [|done]. simpl. clear Hsh.
    induction items as [|x items IHi]; simpl; [constructor|].
    apply Forall_cons in IH as [Hx IH]. apply Forall_cons in Hw as [Hwx Hw].
    constructor; [|auto]. destruct x as [x|]; simpl in *; constructor. auto.
  - apply ks_obj. destruct Hsh as [Hnd _]. simpl in Hnd. split; [|done]. simpl. intros key.
    rewrite mget_mof_list by (by rewrite keys_map_entry). rewrite mget_map_entry.
    destruct (mget key fields) as [x|] eqn:E; simpl; constructor.
    apply mget_Some_In in E. rewrite Forall_forall in IH, Hw.
    specialize (IH _ (proj2 (elem_of_list_In _ _) E)). specialize (Hw _ (proj2 (elem_of_list_In _ _) E)).
    simpl in *. destruct x as [x|]; simpl in *; constructor. auto.
Qed.

Lemma objsame_canon o : wf_obj o → objsame psame o (canon_obj o).
Proof.
  destruct o as [f u]. intros [[Hnd _] Hw]. unfold canon_obj. simpl in *. split; [|done]. simpl. intros key.
  rewrite mget_mof_list by (by rewrite keys_map_entry). rewrite mget_map_entry.
  destruct (mget key f) as [x|] eqn:E; simpl; constructor.
  apply mget_Some_In in E. rewrite Forall_forall in Hw.
  specialize (Hw _ (proj2 (elem_of_list_In _ _) E)).
  simpl in *. destruct x as [x|]; simpl in *; constructor. by apply psame_canon.
Qed.

Lemma wsame_canon m : wf_wrapper m → wsame m (canon_wrapper m).
Proof.
  destruct m as [[[[[o|] u2]|]|] u]; intros [H _]; split; try done; simpl in *.
  - apply os_some, os_some. split; [|done]. apply os_some. apply objsame_canon. apply H.
  - apply os_some, os_some. split; [|done]. apply os_none.
  - constructor.
Qed.

Lemma canon_wsame m m' : wf_wrapper m → wf_wrapper m' → wsame m m' → canon_wrapper m = canon_wrapper m'.
Proof.
  destruct m as [lg u], m' as [lg' u']. intros [H _] [H' _] [Hs Hu]. simpl in *. subst u'.
  unfold canon_wrapper. simpl. f_equal.
  inversion Hs as [|x y Hxy]; subst; [done|]. simpl. f_equal.
  inversion Hxy as [|l l' [Hl Hlu]]; subst; [done|]. simpl. f_equal.
  destruct l as [lo lu], l' as [lo' lu']. unfold canon_log. simpl in *. subst lu'. f_equal.
  destruct H as [Ho _], H' as [Ho' _].
  destruct Hl as [|o o' Hoo]; [done|]. simpl in *. f_equal.
  destruct Ho as [[Hn _] Hw], Ho' as [[Hn' _] Hw'].
  apply (canon_obj_same (λ _, True)); try done.
  apply obj_all_true. intros v v'. apply canon_psame.
Qed.
