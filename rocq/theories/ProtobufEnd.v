(** * Events through protobuf messages and bytes *)
From Verif Require Export ProtobufFacts.
Local Open Scope Z_scope.

(** Numbers in the range of their Go types (floats are bit patterns). *)
Fixpoint in_range (t : tree) : Prop :=
  match t with
  | TInt z | TTime z => - 2 ^ 63 ≤ z < 2 ^ 63
  | TUint z | TFloat z => 0 ≤ z < 2 ^ 64
  | TArr l => (fix go l := match l with [] => True | t :: l' => in_range t ∧ go l' end) l
  | TObj m => (fix go (m : list (string * tree)) :=
                 match m with [] => True | (k, t) :: m' => in_range t ∧ go m' end) m
  | _ => True
  end.
Lemma in_range_arr l : in_range (TArr l) ↔ Forall in_range l.
Proof. cbn [in_range]. induction l as [|t l IH]; [by split|]. rewrite Forall_cons, IH. done. Qed.
Lemma in_range_obj m : in_range (TObj m) ↔ Forall (λ kv, in_range kv.2) m.
Proof. cbn [in_range]. induction m as [|[k t] m IH]; [by split|]. rewrite Forall_cons, IH. simpl. tauto. Qed.

Lemma from_tree_keys t : tsorted t → opt_all keys_ok (from_tree t).
Proof.
  induction t as [| | | | | | | | |l IH| |m IH] using tree_ind'; try done.
  - rewrite tsorted_arr. intros Hs. cbn [from_tree opt_all keys_ok]. split; [done|].
    apply (kind_each_all _ (KArray (Some (mkPArr (map from_tree l) [])))). simpl.
    apply Forall_forall. intros x Hx. apply elem_of_list_fmap in Hx as (t & -> & Ht).
    rewrite Forall_forall in *. auto.
  - intros _. cbn. split; [constructor|done].
  - rewrite tsorted_obj. intros [Hm Hs]. cbn [from_tree opt_all keys_ok]. split.
    + simpl. rewrite map_map. simpl. by apply msorted_NoDup.
    + apply (kind_each_all _ (KObject (Some (mkPObj (map (λ kv, (kv.1, from_tree kv.2)) m) [])))). simpl.
      apply Forall_forall. intros x Hx. apply elem_of_list_fmap in Hx as ([k t] & -> & Ht). simpl.
      rewrite Forall_forall in *. apply (IH _ Ht). apply (Hs _ Ht).
Qed.

Lemma from_tree_wf t : tsorted t → no_nil_tree t → in_range t →
  ∃ v, from_tree t = Some v ∧ wf_value v.
Proof.
  induction t as [| | | | | | | | |l IH| |m IH] using tree_ind'; intros Hs Hn Hr; try done;
    cbn [from_tree]; (eexists; split; [reflexivity|]);
    try (by (cbn [wf_value]; split; [constructor|]; split; [cbn; try done; try lia|done])).
  - cbn. split_and!; try constructor; try done; constructor.
  - rewrite tsorted_arr in Hs. rewrite no_nil_arr in Hn. rewrite in_range_arr in Hr.
    assert (∀ t, t ∈ l → ∃ v, from_tree t = Some v ∧ wf_value v) as H.
    { intros t Ht. rewrite Forall_forall in *. auto. }
    cbn [wf_value]. split; [constructor|]. split.
    + cbn. split; [|constructor]. apply Forall_forall. intros x Hx.
      apply elem_of_list_fmap in Hx as (t & -> & Ht). destruct (H t Ht) as (v & -> & _). done.
    + apply (kind_each_all _ (KArray (Some (mkPArr (map from_tree l) [])))). simpl.
      apply Forall_forall. intros x Hx.
      apply elem_of_list_fmap in Hx as (t & -> & Ht). destruct (H t Ht) as (v & -> & Hv). done.
  - cbn. split_and!; try constructor; try done; constructor.
  - rewrite tsorted_obj in Hs. destruct Hs as [Hm Hs]. rewrite no_nil_obj in Hn. rewrite in_range_obj in Hr.
    assert (∀ k t, (k, t) ∈ m → ∃ v, from_tree t = Some v ∧ wf_value v) as H.
    { intros k t Ht. rewrite Forall_forall in *. specialize (IH _ Ht). specialize (Hs _ Ht).
      specialize (Hn _ Ht). specialize (Hr _ Ht). auto. }
    cbn [wf_value]. split; [constructor|]. split.
    + split; [|constructor]. simpl. rewrite map_map. simpl. by apply msorted_NoDup.
    + apply (kind_each_all _ (KObject (Some (mkPObj (map (λ kv, (kv.1, from_tree kv.2)) m) [])))). simpl.
      apply Forall_forall. intros x Hx.
      apply elem_of_list_fmap in Hx as ([k t] & -> & Ht). destruct (H k t Ht) as (v & Hv & Hw). simpl. by rewrite Hv.
Qed.

Lemma osame_trans {A} (R : A → A → Prop) x y z :
  opt_all (λ a, ∀ b c, R a b → R b c → R a c) x → osame R x y → osame R y z → osame R x z.
Proof. intros Ht H1 H2. destruct H1; inversion H2; subst; constructor. simpl in Ht. eauto. Qed.

Lemma psame_trans v : ∀ v' v'', psame v v' → psame v' v'' → psame v v''.
Proof.
  induction v as [k u IH] using pval_ind'. intros v' v'' H1 H2.
  inversion H1 as [? k' ? Hk]; subst. inversion H2 as [? k'' ? Hk']; subst. constructor. clear H1 H2.
  destruct Hk as [k Hl|a a' [Ha Hu]|o o' [Ho Hu]].
  - inversion Hk'; subst; done.
  - inversion Hk' as [? Hl|? a'' [Ha' Hu']|]; subst; [done|]. destruct a as [items ua]. simpl in *.
    apply ks_arr. split; [|simpl in *; congruence]. simpl. revert Ha Ha' IH. generalize (pa_items a'), (pa_items a''). clear.
    intros l' l'' Ha. revert l''. induction Ha as [|x y items l' Hxy Ha IHa]; intros l'' Ha' IH; inversion Ha'; subst; [constructor|].
    apply Forall_cons in IH as [Hx IH]. constructor; [|auto]. by eapply osame_trans.
  - inversion Hk' as [? Hl| |? o'' [Ho' Hu']]; subst; [done|]. destruct o as [fs uo]. simpl in *.
    apply ks_obj. split; [|simpl in *; congruence]. simpl. intros key. specialize (Ho key). specialize (Ho' key).
    eapply osame_trans; [|done|done]. destruct (mget key fs) as [x|] eqn:E; [|done]. simpl.
    intros b c. apply osame_trans. apply mget_Some_In, elem_of_list_In in E.
    rewrite Forall_forall in IH. apply (IH _ E).
Qed.
Lemma opt_all_intro {A} (P : A → Prop) x : (∀ a, P a) → opt_all P x.
Proof. destruct x; simpl; auto. Qed.
Lemma objsame_trans o o' o'' : objsame psame o o' → objsame psame o' o'' → objsame psame o o''.
Proof.
  intros [Ho Hu] [Ho' Hu']. split; [|simpl in *; congruence]. intros key. eapply osame_trans; [|apply Ho|apply Ho'].
  apply opt_all_intro. intros x b c. apply osame_trans. apply opt_all_intro. apply psame_trans.
Qed.
Lemma wsame_trans m m' m'' : wsame m m' → wsame m' m'' → wsame m m''.
Proof.
  intros [H Hu] [H' Hu']. split; [|simpl in *; congruence]. eapply osame_trans; [|apply H|apply H'].
  apply opt_all_intro. intros x b c. apply osame_trans. apply opt_all_intro.
  intros l l' l'' [Hl Hlu] [Hl' Hlu']. split; [|simpl in *; congruence]. eapply osame_trans; [|apply Hl|apply Hl'].
  apply opt_all_intro. apply objsame_trans.
Qed.

(** A message visited in another order is as well formed. *)
Lemma reorder_all (P Q : pval → Prop) fs fs' :
  NoDup (map fst fs) → NoDup (map fst fs') →
  (∀ key, osame (osame psame) (mget key fs) (mget key fs')) →
  Forall (λ kv, opt_all (λ v, ∀ v', P v → psame v v' → keys_ok v' → Q v') kv.2) fs →
  Forall (λ kv, opt_all P kv.2) fs → Forall (λ kv, opt_all keys_ok kv.2) fs' →
  Forall (λ kv, opt_all Q kv.2) fs'.
Proof.
  intros Hn Hn' Hs HI HP HK. destruct (fields_reorder psame fs fs' Hn Hn' Hs) as (fs2 & Hp & Hf).
  rewrite <- Hp. rewrite <- Hp in HK. clear -Hf HI HP HK.
  induction Hf as [|[k x] [k2 x2] fs fs2 [_ Hx] Hf IHf]; [constructor|].
  apply Forall_cons in HI as [HIx HI]. apply Forall_cons in HP as [HPx HP]. apply Forall_cons in HK as [HKx HK].
  constructor; [|auto]. simpl in *. destruct Hx; simpl in *; eauto.
Qed.
Lemma psame_wf v : ∀ v', wf_value v → psame v v' → keys_ok v' → wf_value v'.
Proof.
  induction v as [k u IH] using pval_ind'. intros v' Hw Hs Hk.
  inversion Hs as [? k' ? Hk']; subst. destruct Hw as (Hu & Hsh & Hw). destruct Hk as [Hks Hk].
  cbn [wf_value]. rewrite kind_each_all in *. split; [done|].
  destruct Hk' as [k Hl|a a' [Ha Hua]|o o' [Ho Huo]].
  - done.
  - destruct a as [items ua], a' as [items' ua']. simpl in *. subst ua'. destruct Hsh as [Hni Hu2].
    split; [split; [|done]|].
    + clear -Ha Hni. induction Ha as [|x y ? ? Hxy Ha IHa]; [constructor|]. apply Forall_cons in Hni as [? ?].
      constructor; [|auto]. by destruct Hxy.
    + clear -Ha IH Hw Hk. induction Ha as [|x y ? ? Hxy Ha IHa]; [constructor|].
      apply Forall_cons in IH as [IHx IH]. apply Forall_cons in Hw as [Hwx Hw]. apply Forall_cons in Hk as [Hkx Hk].
      constructor; [|auto]. destruct Hxy; simpl in *; eauto.
  - destruct o as [fs uo], o' as [fs' uo']. simpl in *. subst uo'. destruct Hsh as [Hnd Hu2].
    split; [split; [done|done]|]. simpl in *. by apply (reorder_all wf_value wf_value fs fs').
Qed.
Lemma wsame_wf m m' : wf_wrapper m → wsame m m' → keys_ok_wrapper m' → wf_wrapper m'.
Proof.
  destruct m as [lg u], m' as [lg' u']. intros [Hl Hu] [Hs Hue] Hk. unfold wf_wrapper, keys_ok_wrapper in *.
  simpl in *. subst u'. split; [|done].
  inversion Hs as [|x y Hxy]; subst; [done|]. inversion Hxy as [|l l' [Hll Hlu]]; subst; [done|].
  destruct l as [lo lu], l' as [lo' lu']. simpl in *. subst lu'. destruct Hl as [Ho Hlu]. split; [|done]. simpl in *.
  destruct Hll as [|o o' [Hoo Hou]]; [done|]. destruct o as [fs uo], o' as [fs' uo']. simpl in *. subst uo'.
  destruct Ho as [[Hn Hu2] Hw]. destruct Hk as [Hn' Hk]. simpl in *. split; [done|]. simpl.
  apply (reorder_all wf_value wf_value fs fs'); try done. apply Forall_forall. intros kv _. apply opt_all_intro. apply psame_wf.
Qed.

Lemma event_message_wf m : msorted m → Forall (λ kv, tsorted kv.2) m →
  Forall (λ kv, no_nil_tree kv.2) m → Forall (λ kv, in_range kv.2) m → wf_wrapper (event_message m).
Proof.
  intros Hm Hs Hn Hr. unfold wf_wrapper, event_message. simpl. split; [|constructor].
  split; [|constructor]. simpl. destruct m as [|kv m]; [done|]. 
  cbn [event_object opt_all]. split.
  - split; [|constructor]. cbn [po_fields]. rewrite map_map. simpl (λ x, _). exact (msorted_NoDup _ Hm).
  - unfold obj_all. apply Forall_forall. intros x Hx. apply elem_of_list_fmap in Hx as ([k t] & -> & Ht). simpl.
    rewrite Forall_forall in *. specialize (Hs _ Ht). specialize (Hn _ Ht). specialize (Hr _ Ht).
    destruct (from_tree_wf t Hs Hn Hr) as (v & -> & Hv). done.
Qed.

Lemma ev_rep_sorted h e m fp : ev_rep h e m fp → msorted m ∧ Forall (λ kv, tsorted kv.2) m.
Proof.
  unfold ev_rep. destruct (fields e) as [r|].
  - intros (gm & fps & _ & Hs & Ha & _ & _). destruct (proj2 (proj2 (rep_tsorted h)) _ _ _ Ha) as [Hk Ht].
    split; [|done]. clear -Hk Hs. revert m Hk.
    induction gm as [|[k x] gm IH]; intros [|[k' x'] m] Hk; simpl in *; try done.
    injection Hk as -> Hk. destruct Hs as [Hall Hs]. split; [|auto].
    clear -Hall Hk. revert gm Hk Hall. induction m as [|[k2 x2] m IH]; intros [|[k3 x3] gm] Hk Hall; simpl in *; try done.
    injection Hk as -> Hk. apply Forall_cons in Hall as [? ?]. constructor; eauto.
  - intros [-> _]. split; [done|constructor].
Qed.

(** Every value of the message decodes to what is returned of it. *)
Lemma from_reordered m o' : m ≠ [] → msorted m → Forall (λ kv, tsorted kv.2) m → Forall (λ kv, no_nil_tree kv.2) m →
  osame (objsame psame) (event_object m) (Some o') → keys_ok_obj o' →
  ∃ l, Permutation l m ∧
    Forall2 (λ kv kv', kv.1 = kv'.1 ∧ toEventValue kv'.2 = Ok (returned kv.2)) l (po_fields o').
Proof.
  intros Hne Hm Hs Hn Ho [Hk Hall].
  assert (objsame psame (mkPObj (map (λ kv, (kv.1, from_tree kv.2)) m) []) o') as [Hf _].
  { destruct m as [|kv m]; [done|]. simpl event_object in Ho. by inversion Ho. }
  simpl in Hf. destruct o' as [fs' uo]. simpl in *.
  assert (NoDup (map fst (map (λ kv : string * tree, (kv.1, from_tree kv.2)) m))) as Hnd.
  { rewrite map_map. simpl. by apply msorted_NoDup. }
  destruct (fields_reorder psame _ fs' Hnd Hk Hf) as (fs2 & Hp & Hf2).
  assert (Forall2 (λ (kv : string * tree) kv', kv.1 = kv'.1 ∧ toEventValue kv'.2 = Ok (returned kv.2)) m fs2) as H2.
  { rewrite <- Hp in Hall. clear -Hf2 Hs Hn Hall. 
    remember (map _ m) as mm eqn:E. revert m E Hs Hn.
    induction Hf2 as [|[k x] [k2 x2] mm fs2 [Hkk Hx] Hf IHf]; intros [|[k1 t1] m] E Hs Hn; try done.
    simpl in E. injection E as -> -> ->. simpl in *. subst k2.
    apply Forall_cons in Hs as [Hs1 Hs]. apply Forall_cons in Hn as [Hn1 Hn]. apply Forall_cons in Hall as [Ha1 Hall].
    constructor; [|by apply IHf]. simpl in *. split; [done|].
    pose proof (to_from t1 Hn1) as Ht. pose proof (from_tree_keys t1 Hs1) as Hkt.
    destruct Hx as [|v v' Hv]; [done|]. simpl in *. by eapply to_value_same. }
  clear -H2 Hp. revert m H2.
  induction Hp as [|x l l' Hp IH|x y l|l l2 l3 H1 IH1 H2' IH2]; intros m HF.
  - inversion HF; subst. exists []. split; [done|constructor].
  - inversion HF as [|a ? m' ? Ha HF']; subst. destruct (IH _ HF') as (l0 & Hp0 & Hf0).
    exists (a :: l0). split; [by constructor|by constructor].
  - inversion HF as [|a ? m' ? Ha HF']; subst. inversion HF' as [|b ? m2 ? Hb HF2]; subst.
    exists (b :: a :: m2). split; [constructor|]. constructor; [done|]. by constructor.
  - destruct (IH1 _ HF) as (l0 & Hp0 & Hf0). destruct (IH2 _ Hf0) as (l1 & Hp1 & Hf1).
    exists l1. split; [by etransitivity|done].
Qed.

Lemma ToLogEvent_reordered h0 m m' : msorted m → Forall (λ kv, tsorted kv.2) m → Forall (λ kv, no_nil_tree kv.2) m →
  wsame (event_message m) m' → keys_ok_wrapper m' →
  (m = [] → ToLogEvent h0 (GetLog m') = Ok (h0, None)) ∧
  (m ≠ [] → ∃ h' e' fp' l, ToLogEvent h0 (GetLog m') = Ok (h', Some e') ∧ Permutation l m ∧
     ev_rep h' e' (fold_left put_field (map (λ kv, (kv.1, returned kv.2)) l) []) fp').
Proof.
  intros Hm Hs Hn [Hw _] Hk. destruct m' as [lg u]. unfold event_message in Hw. simpl in Hw.
  inversion Hw as [|? y Hy]; subst. inversion Hy as [|? l' [Hl _]]; subst. destruct l' as [lo lu]. simpl in *.
  unfold keys_ok_wrapper in Hk. unfold GetLog, ToLogEvent. simpl in *. split.
  - intros ->. simpl in Hl. inversion Hl. done.
  - intros Hne. assert (∃ o', lo = Some o') as [o' ->].
    { destruct m; [done|]. simpl in Hl. inversion Hl; eauto. }
    destruct (from_reordered m o' Hne Hm Hs Hn Hl Hk) as (l & Hp & HF).
    assert (Forall2 (λ kv t, toEventValue kv.2 = Ok t) (po_fields o') (map (λ kv, returned kv.2) l)) as HF'.
    { clear -HF. induction HF as [|[k t] [k' x] l fs [_ Hx] HF IH]; simpl; constructor; done. }
    destruct (put_all_ref (po_fields o') _ h0 newEvent [] [] (conj eq_refl eq_refl) HF') as (h' & e' & fp' & -> & Hev).
    exists h', e', fp', l. split_and!; [done|done|].
    assert (zip (map fst (po_fields o')) (map (λ kv, returned kv.2) l) = map (λ kv, (kv.1, returned kv.2)) l) as Hz.
    { clear -HF. induction HF as [|[k t] [k' x] l fs [Hk _] HF IH]; simpl; [done|]. simpl in Hk. subst. by f_equal. }
    by rewrite Hz in Hev.
Qed.

(** With plain top-level names the fold rebuilds the map. *)
Lemma fold_put_field l acc :
  Forall (λ kv, kv.1 ≠ "" ∧ has_backslash kv.1 = false) l →
  fold_left put_field l acc = fold_left (λ m kv, mset kv.1 kv.2 m) l acc.
Proof.
  revert acc. induction l as [|[k t] l IH]; intros acc H; [done|]. simpl.
  apply Forall_cons in H as [[Hne Hb] H]. simpl in *. unfold put_field at 2. simpl.
  rewrite (proj1 (drop_backslashes_id k)) by done.
  rewrite (proj2 (String.eqb_neq _ _)) by done. by apply IH.
Qed.
Lemma fold_put_field_perm l m : msorted m → Permutation l m →
  Forall (λ kv, kv.1 ≠ "" ∧ has_backslash kv.1 = false) m →
  fold_left put_field l [] = m.
Proof.
  intros Hm Hp Hk. rewrite fold_put_field by (by rewrite Hp). by apply mof_list_perm.
Qed.

Lemma psame_refl v : psame v v.
Proof.
  induction v as [k u IH] using pval_ind'. constructor.
  destruct k as [|z|[[items ua]|]|b|bits|z|[[fields uo]|]|s|z|z]; try (by constructor); simpl in IH.
  - apply ks_arr. split; [|done]. simpl. induction items as [|x items IHi]; [constructor|].
    apply Forall_cons in IH as [Hx IH]. constructor; [|auto]. destruct x; by constructor.
  - apply ks_obj. split; [|done]. simpl. intros key. induction fields as [|[k x] fields IHi]; simpl; [constructor|].
    apply Forall_cons in IH as [Hx IH]. destruct (String.eqb key k); [|auto]. constructor. destruct x; by constructor.
Qed.
