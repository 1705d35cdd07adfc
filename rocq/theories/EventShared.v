(** * Events with arbitrary sharing: no panics, and Put/Get on acyclic heaps. *)
From Verif Require Export EventOps.

(** No dangling pointer, no nil [*Value] in a map and no object with a nil map.
    Sharing and cycles are allowed. *)
Definition closed (h : heap) : Prop :=
  (∀ p v, hvals h !! p = Some v →
     (v_type v = ObjectType → v_obj v ≠ None) ∧
     (∀ r, v_obj v = Some r → r < length (hmaps h))) ∧
  (∀ r gm, hmaps h !! r = Some gm → msorted gm ∧
     ∀ k op, mget k gm = Some op → ∃ p, op = Some p ∧ p < length (hvals h)).

Definition ev_closed (h : heap) (e : event) : Prop :=
  ∀ r, fields e = Some r → r < length (hmaps h).

Definition valid_ptr (h : heap) (op : option ptr) : Prop :=
  ∀ p, op = Some p → p < length (hvals h).

Definition extends (h h' : heap) : Prop :=
  (∀ p v, hvals h !! p = Some v → hvals h' !! p = Some v) ∧
  length (hvals h) ≤ length (hvals h') ∧ length (hmaps h) ≤ length (hmaps h').

Lemma extends_refl h : extends h h.
Proof. repeat split; auto. Qed.
Lemma extends_trans h1 h2 h3 : extends h1 h2 → extends h2 h3 → extends h1 h3.
Proof. intros (A1 & A2 & A3) (B1 & B2 & B3). repeat split; [auto|lia|lia]. Qed.

Lemma lookup_valid {A} (l : list A) i : i < length l → ∃ x, l !! i = Some x.
Proof. intros H. destruct (l !! i) eqn:E; [eauto|]. apply lookup_ge_None in E. lia. Qed.

Lemma get_loop_closed h path r :
  closed h → r < length (hmaps h) → path ≠ [] →
  ∃ op, get_loop h (Some r) path = Ok op ∧ valid_ptr h op.
Proof.
  intros Hc. revert r. induction path as [|k rest IH]; intros r Hr Hne; [done|].
  destruct (lookup_valid _ _ Hr) as [gm Hgm].
  destruct (proj2 Hc _ _ Hgm) as [_ Hptr].
  destruct rest as [|k2 rest].
  - cbn [get_loop]. rewrite (map_of_Some _ _ _ Hgm). destruct (mget k gm) as [op|] eqn:Hk.
    + eexists. split; [done|]. destruct (Hptr _ _ Hk) as (p & -> & Hp). by intros ? [= <-].
    + eexists. split; [done|]. by intros ? ?.
  - rewrite get_loop_cons, (map_of_Some _ _ _ Hgm). destruct (mget k gm) as [op|] eqn:Hk.
    + destruct (Hptr _ _ Hk) as (p & -> & Hp). destruct (lookup_valid _ _ Hp) as [v Hv].
      cbn [deref]. rewrite Hv. destruct (proj1 Hc _ _ Hv) as [_ Hvr].
      destruct (v_obj v) as [ri|] eqn:Ho.
      * destruct (IH ri (Hvr _ eq_refl) ltac:(done)) as (op & Hg & Hop).
        case_match; [eexists; split; [done|]; by intros ? ?|]. eauto.
      * simpl. eexists. split; [done|]. by intros ? ?.
    + eexists. split; [done|]. by intros ? ?.
Qed.

Lemma closed_alloc_val h v :
  closed h → (v_type v = ObjectType → v_obj v ≠ None) →
  (∀ r, v_obj v = Some r → r < length (hmaps h)) → closed (alloc_val h v).1.
Proof.
  intros [H1 H2] Hv1 Hv2. split; simpl.
  - intros p v' Hp. apply lookup_app_Some in Hp as [Hp|[Hlen Hp]]; [exact (H1 _ _ Hp)|].
    apply list_lookup_singleton_Some in Hp as [_ <-]. done.
  - intros r gm Hr. destruct (H2 _ _ Hr) as [Hs Hk]. split; [done|].
    intros k op Hop. destruct (Hk _ _ Hop) as (p & -> & Hp). exists p. split; [done|].
    rewrite app_length. simpl. lia.
Qed.

Lemma closed_alloc_map_with h gm :
  closed h → msorted gm → (∀ k op, mget k gm = Some op → ∃ p, op = Some p ∧ p < length (hvals h)) →
  closed (alloc_map_with h gm).1.
Proof.
  intros [H1 H2] Hs Hg. split; simpl.
  - intros p v Hp. destruct (H1 _ _ Hp) as [Ha Hb]. split; [done|].
    intros r Hr. rewrite app_length. simpl. specialize (Hb _ Hr). lia.
  - intros r gm' Hr. apply lookup_app_Some in Hr as [Hr|[Hlen Hr]]; [exact (H2 _ _ Hr)|].
    apply list_lookup_singleton_Some in Hr as [_ <-]. done.
Qed.

Lemma closed_alloc_map h : closed h → closed (alloc_map h).1.
Proof. intros H. apply (closed_alloc_map_with h []); done. Qed.

Lemma closed_map_write h r gm k p :
  closed h → hmaps h !! r = Some gm → p < length (hvals h) →
  closed (mkHeap (hvals h) (<[r := mset k (Some p) gm]> (hmaps h))).
Proof.
  intros [H1 H2] Hr Hp. split; simpl.
  - intros q v Hq. rewrite insert_length. exact (H1 q v Hq).
  - intros r' gm' Hr'. destruct (decide (r = r')) as [->|Hne].
    + rewrite list_lookup_insert in Hr' by (by eapply lookup_lt_Some). simplify_eq.
      destruct (H2 _ _ Hr) as [Hs Hk]. split; [by apply msorted_mset|].
      intros k' op. rewrite mget_mset. case_match; [|by apply Hk]. intros [= <-]. eauto.
    + rewrite list_lookup_insert_ne in Hr' by done. exact (H2 _ _ Hr').
Qed.

Lemma closed_map_delete h r k : closed h → closed (map_delete h (Some r) k).
Proof.
  intros [H1 H2]. unfold map_delete. destruct (hmaps h !! r) as [gm|] eqn:Hr; [|done].
  split; simpl.
  - intros q v Hq. rewrite insert_length. exact (H1 q v Hq).
  - intros r' gm' Hr'. destruct (decide (r = r')) as [->|Hne].
    + rewrite list_lookup_insert in Hr' by (by eapply lookup_lt_Some). simplify_eq.
      destruct (H2 _ _ Hr) as [Hs Hk]. split; [by apply msorted_mdel|].
      intros k' op Hop. destruct (decide (k' = k)) as [->|Hne]; [by rewrite mget_mdel_eq in Hop|].
      rewrite mget_mdel_ne in Hop by done. by eapply Hk.
    + rewrite list_lookup_insert_ne in Hr' by done. exact (H2 _ _ Hr').
Qed.

(** The heap after creating an empty object below [r] (event.go:77-85). *)
Definition new_below (h : heap) (r : mref) (gm : gomap (option ptr)) (k : string) : heap :=
  mkHeap (hvals h ++ [mkObject (Some (length (hmaps h)))])
         (<[r := mset k (Some (length (hvals h))) gm]> (hmaps h ++ [[]])).

Lemma put_loop_missing full h r gm k k2 rest val :
  hmaps h !! r = Some gm → mget k gm = None →
  put_loop full h (Some r) (k :: k2 :: rest) val =
  put_loop full (new_below h r gm k) (Some (length (hmaps h))) (k2 :: rest) val.
Proof.
  intros Hr Hk. rewrite put_loop_cons, (map_of_Some _ _ _ Hr), Hk. cbn [alloc_map alloc_val].
  erewrite map_write_Some; [|cbn [hmaps]; by apply lookup_app_l_Some]. done.
Qed.

Lemma new_below_closed h r gm k :
  closed h → hmaps h !! r = Some gm → closed (new_below h r gm k).
Proof.
  intros Hc Hr.
  assert (closed (alloc_val (alloc_map h).1 (mkObject (Some (length (hmaps h))))).1) as Hc2.
  { apply closed_alloc_val; [by apply closed_alloc_map|done|].
    intros r' [= <-]. simpl. rewrite app_length. simpl. lia. }
  apply (closed_map_write _ r gm k (length (hvals h)) Hc2).
  - simpl. by apply lookup_app_l_Some.
  - simpl. rewrite app_length. simpl. lia.
Qed.

Lemma new_below_extends h r gm k : extends h (new_below h r gm k).
Proof.
  repeat split; simpl; rewrite ?insert_length, ?app_length; try lia.
  intros p v Hp. by apply lookup_app_l_Some.
Qed.

Lemma new_below_new h r gm k :
  r < length (hmaps h) → hmaps (new_below h r gm k) !! length (hmaps h) = Some [].
Proof.
  intros Hr. simpl. rewrite list_lookup_insert_ne by (lia).
  rewrite lookup_app_r by apply Nat.le_refl. by rewrite Nat.sub_diag.
Qed.

(** An update that starts in an empty map succeeds. *)
Lemma put_loop_empty full h path r p :
  closed h → hmaps h !! r = Some [] → path ≠ [] → p < length (hvals h) →
  ∃ h', put_loop full h (Some r) path (Some p) = Ok (h', None) ∧ closed h' ∧ extends h h'.
Proof.
  revert h r. induction path as [|k rest IH]; intros h r Hc Hr Hne Hp; [done|].
  destruct rest as [|k2 rest].
  - cbn [put_loop]. rewrite (map_write_Some _ _ _ _ _ Hr). eexists. split; [done|].
    split; [by apply closed_map_write|]. repeat split; simpl; rewrite ?insert_length; auto.
  - rewrite (put_loop_missing _ _ _ [] _ _ _ _ Hr) by done.
    destruct (IH (new_below h r [] k) (length (hmaps h))) as (h' & Hput & Hc' & Hx).
    + by apply new_below_closed.
    + apply new_below_new. by eapply lookup_lt_Some.
    + done.
    + simpl. rewrite app_length. simpl. lia.
    + exists h'. split; [done|]. split; [done|]. eapply extends_trans; [apply new_below_extends|done].
Qed.

Lemma put_loop_closed full h path r p :
  closed h → r < length (hmaps h) → path ≠ [] → p < length (hvals h) →
  ∃ h' err, put_loop full h (Some r) path (Some p) = Ok (h', err) ∧ closed h' ∧ extends h h' ∧
    (err ≠ None → h' = h ∧ err = Some (errNotObject full)).
Proof.
  intros Hc. revert r. induction path as [|k rest IH]; intros r Hr Hne Hp; [done|].
  destruct (lookup_valid _ _ Hr) as [gm Hgm].
  destruct rest as [|k2 rest].
  - cbn [put_loop]. rewrite (map_write_Some _ _ _ _ _ Hgm). do 2 eexists. split; [done|].
    split; [by apply closed_map_write|]. split; [|done].
    repeat split; simpl; rewrite ?insert_length; auto.
  - destruct (mget k gm) as [op|] eqn:Hk.
    + rewrite put_loop_cons, (map_of_Some _ _ _ Hgm), Hk.
      destruct (proj2 (proj2 Hc _ _ Hgm) _ _ Hk) as (q & -> & Hq).
      destruct (lookup_valid _ _ Hq) as [v Hv]. cbn [deref]. rewrite Hv.
      destruct (N.eqb_spec (v_type v) ObjectType) as [Ht|Ht].
      * destruct (proj1 Hc _ _ Hv) as [Ho Hor]. specialize (Ho Ht).
        destruct (v_obj v) as [ri|]; [|done]. apply IH; auto.
      * do 2 eexists. split; [done|]. split; [done|]. split; [apply extends_refl|done].
    + rewrite (put_loop_missing _ _ _ gm _ _ _ _ Hgm Hk).
      destruct (put_loop_empty full (new_below h r gm k) (k2 :: rest) (length (hmaps h)) p)
        as (h' & Hput & Hc' & Hx); try done.
      * by apply new_below_closed.
      * by apply new_below_new.
      * simpl. rewrite app_length. simpl. lia.
      * exists h', None. split; [done|]. split; [done|].
        split; [eapply extends_trans; [apply new_below_extends|done]|done].
Qed.

(** ** Calls on closed heaps *)
Lemma get_path_closed h e path :
  closed h → ev_closed h e →
  ∃ h' op, get_path h e path = Ok (h', op) ∧ closed h' ∧ extends h h' ∧ ev_closed h' e ∧
    valid_ptr h' op ∧ (path ≠ [] → h' = h).
Proof.
  intros Hc He. unfold get_path.
  destruct (map_of h (fields e)) as [|e0 gm] eqn:Hm.
  { do 2 eexists. split; [done|]. split_and!; first [done|apply extends_refl|by intros ? ?]. }
  destruct (fields e) as [r|] eqn:Hf; [|done]. pose proof (He _ Hf) as Hr.
  destruct path as [|k path].
  - cbn [alloc_val]. do 2 eexists. split; [done|]. split_and!; try done.
    + apply (closed_alloc_val h (mkObject (Some r))); try done. by intros ? [= <-].
    + repeat split; simpl; rewrite ?app_length; try lia. intros. by apply lookup_app_l_Some.
    + intros p [= <-]. simpl. rewrite app_length. simpl. lia.
  - destruct (get_loop_closed h (k :: path) r Hc Hr ltac:(done)) as (op & -> & Hop).
    do 2 eexists. split; [done|]. split_and!; first [done|apply extends_refl].
Qed.

Lemma put_closed h e path op ow :
  closed h → ev_closed h e → valid_ptr h op →
  ∃ pr, put h e path op ow = Ok pr ∧ closed (put_heap pr) ∧ extends h (put_heap pr) ∧
    ev_closed (put_heap pr) (put_event pr) ∧ valid_ptr (put_heap pr) (put_old pr) ∧
    (put_err pr ≠ None → fields e ≠ None → put_heap pr = h ∧ put_event pr = e).
Proof.
  intros Hc He Hop. unfold put. destruct path as [|k path].
  { eexists. split; [done|]. simpl. split_and!; first [done|apply extends_refl|by intros ? ?]. }
  destruct op as [p|]; cycle 1.
  { eexists. split; [done|]. simpl. split_and!; first [done|apply extends_refl|by intros ? ?]. }
  set (he := match fields e with None => _ | Some _ => _ end).
  assert (∃ h1 e1 r, he = (h1, e1) ∧ fields e1 = Some r ∧ closed h1 ∧ ev_closed h1 e1 ∧
    extends h h1 ∧ (fields e ≠ None → h1 = h ∧ e1 = e))
    as (h1 & e1 & r & -> & Hf & Hc1 & He1 & Hx & Hsame).
  { unfold he. destruct (fields e) as [r|] eqn:Hf.
    - exists h, e, r. split_and!; first [done|apply extends_refl].
    - cbn [alloc_map]. do 3 eexists. split; [done|]. split; [done|]. split_and!; try done.
      + by apply closed_alloc_map.
      + intros r [= <-]. simpl. rewrite app_length. simpl. lia.
      + repeat split; simpl; rewrite ?app_length; try lia. auto. }
  destruct (get_path_closed h1 e1 (k :: path) Hc1 He1) as (h2 & old & -> & _ & _ & _ & Hold & Hh).
  rewrite Hh in * by done. clear Hh.
  case_match eqn:Eow.
  { eexists. split; [done|]. simpl. split_and!; try done. }
  rewrite Hf.
  destruct (put_loop_closed (k :: path) h1 (k :: path) r p Hc1 (He1 _ Hf) ltac:(done))
    as (h3 & err & Hput & Hc3 & Hx3 & Herr).
  { specialize (Hop _ eq_refl). destruct Hx as (_ & ? & _). lia. }
  rewrite Hput. assert (ev_closed h3 e1) as He3.
  { intros r' Hr'. specialize (He1 _ Hr'). destruct Hx3 as (_ & _ & ?). lia. }
  destruct err as [err|].
  - destruct Herr as [-> _]; [done|]. eexists. split; [done|]. simpl. split_and!; first [done|by intros ? ?].
  - eexists. split; [done|]. simpl. split_and!; try done.
    + by eapply extends_trans.
    + intros q Hq. specialize (Hold _ Hq). destruct Hx3 as (_ & ? & _). lia.
Qed.

Lemma delete_closed h e path :
  closed h → ev_closed h e →
  ∃ h' op, delete_path h e path = Ok (h', op) ∧ closed h' ∧ extends h h' ∧ ev_closed h' e ∧
    valid_ptr h' op.
Proof.
  intros Hc He. unfold delete_path. destruct path as [|k path].
  { do 2 eexists. split; [done|]. split_and!; first [done|apply extends_refl|by intros ? ?]. }
  destruct (map_of h (fields e)) eqn:Hm.
  { do 2 eexists. split; [done|]. split_and!; first [done|apply extends_refl|by intros ? ?]. }
  destruct (get_path_closed h e (k :: path) Hc He) as (h2 & old & -> & _ & _ & _ & Hold & Hh).
  rewrite Hh in * by done. destruct old as [q|].
  - do 2 eexists. split; [done|]. destruct (fields e) as [r|] eqn:Hf; [|done].
    assert (extends h (map_delete h (Some r) k)) as Hx.
    { unfold map_delete. case_match; [|apply extends_refl].
      repeat split; simpl; rewrite ?insert_length; auto. }
    split_and!; [by apply closed_map_delete|done| |].
    + intros r' Hr'. specialize (He _ Hr'). destruct Hx as (_ & _ & ?). lia.
    + intros p0 Hp0. specialize (Hold _ Hp0). destruct Hx as (_ & ? & _). lia.
  - do 2 eexists. split; [done|]. split_and!; first [done|apply extends_refl].
Qed.

(** ** Client histories: any calls with any pointers obtained before. *)
Inductive cop : Type :=
| CNewValue (v : Value)
| CNewMap (gm : gomap (option ptr))
| CPut (key : string) (op : option ptr)
| CTryPut (key : string) (op : option ptr)
| CGet (key : string)
| CDelete (key : string).

(** The arguments a client can supply: pointers it already has; objects get a
    non-nil map; maps hold non-nil values. *)
Definition cop_ok (h : heap) (o : cop) : Prop :=
  match o with
  | CNewValue v => (v_type v = ObjectType → v_obj v ≠ None) ∧
                   (∀ r, v_obj v = Some r → r < length (hmaps h))
  | CNewMap gm => msorted gm ∧
                  ∀ k op, mget k gm = Some op → ∃ p, op = Some p ∧ p < length (hvals h)
  | CPut _ op | CTryPut _ op => valid_ptr h op
  | CGet _ | CDelete _ => True
  end.

Definition cexec (h : heap) (e : event) (o : cop) : Outcome (heap * event) :=
  match o with
  | CNewValue v => Ok ((alloc_val h v).1, e)
  | CNewMap gm => Ok ((alloc_map_with h gm).1, e)
  | CPut key op =>
      match Put h e key op with Ok pr => Ok (put_heap pr, put_event pr) | Panic => Panic end
  | CTryPut key op =>
      match TryPut h e key op with Ok pr => Ok (put_heap pr, put_event pr) | Panic => Panic end
  | CGet key => match Get h e key with Ok (h', _) => Ok (h', e) | Panic => Panic end
  | CDelete key => match EvDelete h e key with Ok (h', _) => Ok (h', e) | Panic => Panic end
  end.

Inductive reach : heap → event → Prop :=
| reach_init : reach emptyHeap newEvent
| reach_step h e o h' e' :
    reach h e → cop_ok h o → cexec h e o = Ok (h', e') → reach h' e'.

Lemma cexec_closed h e o :
  closed h → ev_closed h e → cop_ok h o →
  ∃ h' e', cexec h e o = Ok (h', e') ∧ closed h' ∧ ev_closed h' e'.
Proof.
  intros Hc He Ho. destruct o as [v|gm|key op|key op|key|key]; cbn [cexec].
  - do 2 eexists. split; [done|]. split; [by apply closed_alloc_val; destruct Ho|].
    intros r Hr. specialize (He _ Hr). done.
  - do 2 eexists. split; [done|]. split; [by apply closed_alloc_map_with; destruct Ho|].
    intros r Hr. specialize (He _ Hr). simpl. rewrite app_length. simpl. lia.
  - unfold Put. destruct (put_closed h e (keyToPath key) op true Hc He Ho) as (pr & -> & ? & _ & ? & _). eauto.
  - unfold TryPut. destruct (put_closed h e (keyToPath key) op false Hc He Ho) as (pr & -> & ? & _ & ? & _). eauto.
  - unfold Get. destruct (get_path_closed h e (keyToPath key) Hc He) as (h' & op & -> & ? & _ & ? & _). eauto.
  - unfold EvDelete. destruct (delete_closed h e (keyToPath key) Hc He) as (h' & op & -> & ? & _ & ? & _). eauto.
Qed.

Lemma reach_closed h e : reach h e → closed h ∧ ev_closed h e.
Proof.
  intros H. induction H as [|h e o h' e' H [IHc IHe] Ho Hx].
  - split; [split|]; simpl; intros; done.
  - destruct (cexec_closed h e o IHc IHe Ho) as (h2 & e2 & Hx2 & ? & ?).
    rewrite Hx in Hx2. by simplify_eq.
Qed.

Lemma reach_no_panic h e o : reach h e → cop_ok h o → ∃ h' e', cexec h e o = Ok (h', e').
Proof.
  intros Hr Ho. destruct (reach_closed h e Hr) as [Hc He].
  destruct (cexec_closed h e o Hc He Ho) as (h' & e' & ? & _). eauto.
Qed.

(** ** Acyclic heaps *)
(** Object [r] has a field whose value is an object with map [r']. *)
Definition medge (h : heap) (r r' : mref) : Prop :=
  ∃ gm k p v, hmaps h !! r = Some gm ∧ mget k gm = Some (Some p) ∧
    hvals h !! p = Some v ∧ v_obj v = Some r'.
Definition acyclic (h : heap) : Prop := ∀ r, ¬ tc (medge h) r r.

Lemma new_below_edge h r gm k a b :
  closed h → hmaps h !! r = Some gm → mget k gm = None →
  medge (new_below h r gm k) a b → medge h a b ∨ (a = r ∧ b = length (hmaps h)).
Proof.
  intros Hc Hr Hk (g & k' & p & v & Hg & Hk' & Hp & Hv).
  assert (r < length (hmaps h)) as Hrl by (by eapply lookup_lt_Some).
  assert (∀ g, hmaps h !! a = Some g → mget k' g = Some (Some p) → medge h a b) as Hold.
  { intros g0 Hg0 Hk0. destruct (proj2 (proj2 Hc _ _ Hg0) _ _ Hk0) as (p' & [= <-] & Hpl).
    destruct (lookup_valid _ _ Hpl) as [v' Hv'].
    assert (v' = v) as ->.
    { simpl in Hp. rewrite (lookup_app_l_Some _ _ _ _ Hv') in Hp. congruence. }
    exists g0, k', p, v. done. }
  simpl in Hg. destruct (decide (r = a)) as [->|Hne].
  - rewrite list_lookup_insert in Hg by (rewrite app_length; simpl; lia). simplify_eq.
    rewrite mget_mset in Hk'. destruct (String.eqb_spec k' k) as [->|Hne].
    + simplify_eq. right. split; [done|]. simpl in Hp.
      rewrite lookup_app_r in Hp by lia. rewrite Nat.sub_diag in Hp. simpl in Hp. simplify_eq.
      simpl in Hv. by simplify_eq.
    + left. by eapply Hold.
  - rewrite list_lookup_insert_ne in Hg by done.
    apply lookup_app_Some in Hg as [Hg|[_ Hg]].
    + left. by eapply Hold.
    + apply list_lookup_singleton_Some in Hg as [_ <-]. done.
Qed.

Lemma new_below_no_edge h r gm k b :
  r < length (hmaps h) → ¬ medge (new_below h r gm k) (length (hmaps h)) b.
Proof.
  intros Hr (g & k' & p & v & Hg & Hk' & _). rewrite new_below_new in Hg by done.
  by simplify_eq.
Qed.

Lemma new_below_acyclic h r gm k :
  closed h → acyclic h → hmaps h !! r = Some gm → mget k gm = None → acyclic (new_below h r gm k).
Proof.
  intros Hc Hac Hr Hk x Hx.
  assert (r < length (hmaps h)) as Hrl by (by eapply lookup_lt_Some).
  assert (∀ a b, tc (medge (new_below h r gm k)) a b → tc (medge h) a b ∨ b = length (hmaps h)) as H.
  { intros a b Hab. induction Hab as [a b Hab|a b c Hab Hbc IH].
    - destruct (new_below_edge _ _ _ _ _ _ Hc Hr Hk Hab) as [?|[_ ?]]; [left; by apply tc_once|by right].
    - destruct (new_below_edge _ _ _ _ _ _ Hc Hr Hk Hab) as [?|[_ ->]].
      + destruct IH as [?|?]; [left; by eapply tc_l|by right].
      + exfalso. inversion Hbc; by eapply new_below_no_edge. }
  destruct (H _ _ Hx) as [Hx'| ->]; [by eapply Hac|].
  inversion Hx; by eapply new_below_no_edge.
Qed.

Lemma put_loop_get full h path r p h' :
  closed h → acyclic h → r < length (hmaps h) → p < length (hvals h) → path ≠ [] →
  put_loop full h (Some r) path (Some p) = Ok (h', None) →
  get_loop h' (Some r) path = Ok (Some p) ∧ map_of h' (Some r) ≠ [] ∧
  (∀ q v, hvals h !! q = Some v → hvals h' !! q = Some v) ∧
  (∀ r' g, hmaps h !! r' = Some g → ¬ rtc (medge h) r r' → hmaps h' !! r' = Some g).
Proof.
  revert h r. induction path as [|k rest IH]; intros h r Hc Hac Hr Hp Hne Hput; [done|].
  destruct (lookup_valid _ _ Hr) as [gm Hgm].
  destruct rest as [|k2 rest].
  - cbn [put_loop] in Hput. rewrite (map_write_Some _ _ _ _ _ Hgm) in Hput. simplify_eq.
    assert (<[r:=mset k (Some p) gm]> (hmaps h) !! r = Some (mset k (Some p) gm)) as Hl.
    { by apply list_lookup_insert. }
    cbn [get_loop map_of hmaps hvals]. rewrite Hl, mget_mset_eq. split_and!; try done.
    + intros Hn. pose proof (mget_mset_eq k (Some p) gm) as Hx. by rewrite Hn in Hx.
    + intros r' g Hr' Hnr. rewrite list_lookup_insert_ne; [done|].
      intros <-. by apply Hnr, rtc_refl.
  - destruct (mget k gm) as [op|] eqn:Hk.
    + rewrite put_loop_cons, (map_of_Some _ _ _ Hgm), Hk in Hput.
      destruct (proj2 (proj2 Hc _ _ Hgm) _ _ Hk) as (q & -> & Hq).
      destruct (lookup_valid _ _ Hq) as [v Hv]. cbn [deref] in Hput. rewrite Hv in Hput.
      destruct (N.eqb_spec (v_type v) ObjectType) as [Ht|Ht]; [|done].
      destruct (proj1 Hc _ _ Hv) as [Ho Hor]. specialize (Ho Ht).
      destruct (v_obj v) as [ri|] eqn:Hvo; [|done].
      assert (medge h r ri) as Hedge by (exists gm, k, q, v; done).
      destruct (IH h ri Hc Hac (Hor _ eq_refl) Hp ltac:(done) Hput) as (IHg & IHn & IHv & IHm).
      assert (hmaps h' !! r = Some gm) as Hr'.
      { apply IHm; [done|]. intros Hrt. apply (Hac r). by eapply tc_rtc_r; [apply tc_once|]. }
      rewrite get_loop_cons, (map_of_Some _ _ _ Hr'), Hk. cbn [deref].
      rewrite (IHv _ _ Hv), Hvo. split_and!; try done.
      * by destruct (map_of h' (Some ri)).
      * by intros ->.
      * intros r' g Hr0 Hnr. apply IHm; [done|]. intros Hrt. apply Hnr. by eapply rtc_l.
    + rewrite (put_loop_missing _ _ _ gm _ _ _ _ Hgm Hk) in Hput.
      set (h3 := new_below h r gm k) in *.
      destruct (IH h3 (length (hmaps h))) as (IHg & IHn & IHv & IHm); try done.
      * by apply new_below_closed.
      * by apply new_below_acyclic.
      * simpl. rewrite insert_length, app_length. simpl. lia.
      * simpl. rewrite app_length. simpl. lia.
      * assert (∀ x, rtc (medge h3) (length (hmaps h)) x → x = length (hmaps h)) as Hstop.
        { intros x Hx. inversion Hx; [done|]. exfalso. by eapply new_below_no_edge. }
        assert (hmaps h' !! r = Some (mset k (Some (length (hvals h))) gm)) as Hr'.
        { apply IHm.
          - simpl. apply list_lookup_insert. rewrite app_length. simpl. lia.
          - intros Hx%Hstop. lia. }
        assert (hvals h' !! length (hvals h) = Some (mkObject (Some (length (hmaps h))))) as Hq.
        { apply IHv. simpl. rewrite lookup_app_r by lia. by rewrite Nat.sub_diag. }
        rewrite get_loop_cons, (map_of_Some _ _ _ Hr'), mget_mset_eq. cbn [deref].
        rewrite Hq. cbn [v_obj mkObject]. split_and!.
        -- by destruct (map_of h' (Some (length (hmaps h)))).
        -- intros Hn.
           pose proof (mget_mset_eq k (Some (length (hvals h))) gm) as Hx. by rewrite Hn in Hx.
        -- intros q v Hv. apply IHv. simpl. by apply lookup_app_l_Some.
        -- intros r' g Hr0 Hnr. apply IHm.
           ++ simpl. rewrite list_lookup_insert_ne; [by apply lookup_app_l_Some|].
              intros <-. by apply Hnr, rtc_refl.
           ++ intros Hx%Hstop. apply lookup_lt_Some in Hr0. lia.
Qed.

Lemma alloc_map_acyclic h : closed h → acyclic h → acyclic (alloc_map h).1.
Proof.
  intros Hc Hac x Hx.
  assert (∀ a b, medge (alloc_map h).1 a b → medge h a b) as He.
  { intros a b (g & k & p & v & Hg & Hk & Hp & Hv). simpl in *.
    apply lookup_app_Some in Hg as [Hg|[_ Hg]]; [by exists g, k, p, v|].
    apply list_lookup_singleton_Some in Hg as [_ <-]. done. }
  apply (Hac x). revert Hx. generalize x at 1 3. intros y Hx.
  induction Hx as [a b Hab|a b c Hab Hbc IH]; [by apply tc_once, He|eapply tc_l; [by apply He|done]].
Qed.

Lemma put_get_acyclic h e key p ow pr :
  closed h → ev_closed h e → acyclic h → p < length (hvals h) →
  put h e (keyToPath key) (Some p) ow = Ok pr → put_err pr = None →
  Get (put_heap pr) (put_event pr) key = Ok (put_heap pr, Some p).
Proof.
  intros Hc He Hac Hp Hput Herr. unfold Get. unfold put in Hput.
  destruct (keyToPath key) as [|k path]; [by simplify_eq|].
  set (he := match fields e with None => _ | Some _ => _ end) in Hput.
  assert (∃ h1 e1 r, he = (h1, e1) ∧ fields e1 = Some r ∧ closed h1 ∧ ev_closed h1 e1 ∧
    acyclic h1 ∧ p < length (hvals h1))
    as (h1 & e1 & r & Ehe & Hf & Hc1 & He1 & Hac1 & Hp1).
  { unfold he. destruct (fields e) as [r|] eqn:Hf.
    - exists h, e, r. by split_and!.
    - cbn [alloc_map]. do 3 eexists. split; [done|]. split; [done|]. split_and!; try done.
      + by apply closed_alloc_map.
      + intros r [= <-]. simpl. rewrite app_length. simpl. lia.
      + by apply alloc_map_acyclic. }
  rewrite Ehe in Hput.
  destruct (get_path_closed h1 e1 (k :: path) Hc1 He1) as (h2 & old & Hg & _ & _ & _ & Hold & Hh).
  rewrite Hg in Hput. rewrite Hh in * by done. clear Hh.
  case_match eqn:Eow; [by simplify_eq|].
  rewrite Hf in Hput.
  destruct (put_loop (k :: path) h1 (Some r) (k :: path) (Some p)) as [[h3 [err|]]|] eqn:Hpl;
    simplify_eq. cbn [put_heap put_event].
  destruct (put_loop_get (k :: path) h1 (k :: path) r p h3) as (Hget & Hne & _); try done.
  { by apply He1. }
  unfold get_path. rewrite Hf. destruct (map_of h3 (Some r)); [done|]. by rewrite Hget.
Qed.

(** ** TryPut on any heap *)
Lemma tryput_exists h e key p h' q :
  keyToPath key ≠ [] → Get h e key = Ok (h', Some q) →
  TryPut h e key (Some p) = Ok (mkPut h e (Some q) (Some (err_exists (keyToPath key)))).
Proof.
  unfold Get, TryPut, put. intros Hne Hg. destruct (keyToPath key) as [|k path]; [done|].
  destruct (fields e) as [r|] eqn:Hf.
  - pose proof (get_path_heap _ _ _ _ _ Hne Hg) as ->. rewrite Hg. done.
  - unfold get_path in Hg. rewrite Hf in Hg. done.
Qed.

Lemma tryput_missing h e key op h' :
  closed h → ev_closed h e →
  Get h e key = Ok (h', None) → TryPut h e key op = Put h e key op.
Proof.
  unfold Get, TryPut, Put, put. intros Hc He Hg. destruct (keyToPath key) as [|k path]; [done|].
  destruct op as [p|]; [|done].
  destruct (fields e) as [r|] eqn:Hf.
  - assert (k :: path ≠ []) as Hne by done.
    pose proof (get_path_heap _ _ _ _ _ Hne Hg) as ->. rewrite Hg. done.
  - cbn [alloc_map]. 
    assert (get_path (mkHeap (hvals h) (hmaps h ++ [[]])) (mkEvent (Some (length (hmaps h)))) (k :: path)
      = Ok (mkHeap (hvals h) (hmaps h ++ [[]]), None)) as ->; [|done].
    unfold get_path. cbn [fields map_of hmaps]. rewrite lookup_app_r by apply Nat.le_refl.
    by rewrite Nat.sub_diag.
Qed.

(** Delete returns what Get returned and afterwards the key is gone. *)
Lemma delete_get h e key :
  closed h → ev_closed h e → keyToPath key ≠ [] →
  ∃ h' op, EvDelete h e key = Ok (h', op) ∧ Get h e key = Ok (h, op) ∧
    Get h' e key = Ok (h', None) ∧ (op = None → h' = h).
Proof.
  unfold EvDelete, Get, delete_path. intros Hc He Hne.
  destruct (keyToPath key) as [|k path] eqn:Hk; [done|].
  destruct (get_path_closed h e (k :: path) Hc He) as (h2 & old & Hg & _ & _ & _ & Hold & Hh).
  rewrite Hh in * by done. clear Hh. rewrite Hg.
  destruct (map_of h (fields e)) as [|e0 gm] eqn:Hm.
  { assert (old = None) as ->. { unfold get_path in Hg. rewrite Hm in Hg. by simplify_eq. }
    exists h, None. split_and!; try done. }
  destruct old as [q|]; [|exists h, None; split_and!; done].
  destruct (fields e) as [r|] eqn:Hf; [|done].
  destruct (lookup_valid _ _ (He _ Hf)) as [gm' Hr].
  do 2 eexists. split; [done|]. split; [done|]. split; [|done].
  unfold get_path. rewrite Hf. unfold map_delete. rewrite Hr.
  assert (map_of (mkHeap (hvals h) (<[r:=mdel k gm']> (hmaps h))) (Some r) = mdel k gm') as Hmo.
  { cbn [map_of hmaps]. rewrite list_lookup_insert; [done|]. by eapply lookup_lt_Some. }
  rewrite Hmo. destruct (mdel k gm') as [|e1 gm1] eqn:Hd; [done|].
  destruct path as [|k2 path].
  - cbn [get_loop]. rewrite Hmo, <-Hd, mget_mdel_eq. done.
  - rewrite get_loop_cons, Hmo, <-Hd, mget_mdel_eq. done.
Qed.
