(** * The processors run on represented events. *)
From Verif Require Export EventCopyOps Processors.

(** ** Vocabulary *)

(** The value a Get of a path shows: the empty path shows the whole event, and
    nothing when the event is empty. *)
Definition field_value (path : list string) (m : gomap tree) : option tree :=
  match path, m with
  | [], [] => None
  | _, _ => tlookup path m
  end.

Definition array_elems (t : tree) : option (list tree) :=
  match t with
  | TNilArr => Some []
  | TArr l => Some l
  | _ => None
  end.

(** The processor is called with an event that shows [m] and is made of the
    containers [fp]. *)
Definition runs_on (w : world) (pe : pevent) (i : nat) (m : gomap tree) (fp : list loc) : Prop :=
  pe_data pe = Some i ∧ ∃ e, w_events w !! i = Some e ∧ ev_rep (w_heap w) e m fp.

(** Afterwards event [i] shows [m']; every other event, every container outside
    [fp], the environment and the metrics are as before. *)
Definition leaves (w w' : world) (i : nat) (fp : list loc) (m' : gomap tree) : Prop :=
  (∃ e' fp', w_events w' !! i = Some e' ∧ ev_rep (w_heap w') e' m' fp') ∧
  stable (w_heap w) (w_heap w') (λ l, l ∈ fp) ∧
  (∀ j, j ≠ i → w_events w' !! j = w_events w !! j) ∧
  w_env w' = w_env w ∧ w_log w' = w_log w.

(** The same when containers may have become shared inside event [i]. *)
Definition leaves_shared (w w' : world) (i : nat) (fp : list loc) (m' : gomap tree) : Prop :=
  (∃ e', w_events w' !! i = Some e' ∧ ev_shows (w_heap w') e' m') ∧
  stable (w_heap w) (w_heap w') (λ l, l ∈ fp) ∧
  (∀ j, j ≠ i → w_events w' !! j = w_events w !! j) ∧
  w_env w' = w_env w ∧ w_log w' = w_log w.

(** ** Running the primitive steps *)
Lemma evt_of_eq w pe i e :
  pe_data pe = Some i → w_events w !! i = Some e → evt_of w pe = Some (i, e).
Proof. intros H1 H2. unfold evt_of. by rewrite H1, H2. Qed.

Lemma leaves_refl w i m fp e :
  w_events w !! i = Some e → ev_rep (w_heap w) e m fp → leaves w w i fp m.
Proof. intros H1 H2. split; [eauto|]. split; [apply stable_refl|]. done. Qed.

Lemma world_eta w : mkWorld (w_heap w) (w_events w) (w_env w) (w_log w) = w.
Proof. by destruct w. Qed.

Lemma get_field h e m fp key :
  ev_rep h e m fp → mclean m →
  ∃ h' op, Get h e key = Ok (h', op) ∧ ev_rep h' e m fp ∧ stable h h' noW ∧
    (keyToPath key ≠ [] → h' = h) ∧ obs h' op (field_value (keyToPath key) m).
Proof.
  intros Hev Hm. destruct (get_tree h e m fp key Hev Hm) as (h' & op & Hg & Hev' & Hst & H1 & H2).
  exists h', op. split_and!; try done.
  - intros Hne. by apply H1.
  - unfold field_value. destruct (keyToPath key) as [|k path].
    + specialize (H2 eq_refl). destruct m; [done|]. simpl. done.
    + by destruct (H1 ltac:(done)) as [-> ?].
Qed.

Lemma field_value_ne path m : path ≠ [] → field_value path m = tlookup path m.
Proof. by destruct path. Qed.

Lemma rep_string h p t fp v :
  rep h (Some p) t fp → hvals h !! p = Some v →
  (v_type v = StringType → t = TStr (v_str v) ∨ ∃ r, v_obj v = Some r) ∧
  (∀ s, t = TStr s → v_type v = StringType ∧ v_str v = s).
Proof.
  intros H Hp. inversion H; simplify_eq.
  - match goal with H : scalar_tree _ = _ |- _ => rename H into Hs end.
    unfold scalar_tree in Hs. split.
    + intros Ht. rewrite Ht in Hs. destruct (v_obj v); [done|]. simpl in Hs. left. congruence.
    + intros s ->. destruct (v_obj v); [done|].
      repeat match type of Hs with context [N.eqb ?a ?b] =>
        destruct (N.eqb_spec a b); try congruence end.
      split; [done|congruence].
  - split; [intros Ht|done]. match goal with H : v_type v = ArrayType |- _ => by rewrite Ht in H end.
  - split; [intros Ht|done]. match goal with H : v_type v = ArrayType |- _ => by rewrite Ht in H end.
  - split; [intros Ht|done]. match goal with H : v_type v = ObjectType |- _ => by rewrite Ht in H end.
  - split; [intros Ht|done]. match goal with H : v_type v = ObjectType |- _ => by rewrite Ht in H end.
Qed.

Lemma rep_type_string h p t fp v :
  rep h (Some p) t fp → hvals h !! p = Some v →
  (v_type v = StringType ∧ t = TStr (v_str v)) ∨ (v_type v ≠ StringType ∧ ∀ s, t ≠ TStr s).
Proof.
  intros H Hp. destruct (rep_string h p t fp v H Hp) as [H1 H2].
  destruct (decide (v_type v = StringType)) as [Ht|Ht].
  - left. split; [done|]. destruct (H1 Ht) as [?|[r Hr]]; [done|].
    exfalso. inversion H; simplify_eq; try congruence.
    + match goal with H : scalar_tree _ = _ |- _ => apply scalar_tree_obj in H end. congruence.
    + match goal with H : v_type v = ObjectType |- _ => by rewrite Ht in H end.
  - right. split; [done|]. intros s ->. by destruct (H2 s eq_refl).
Qed.

Lemma rep_type_array h p t fp v :
  rep h (Some p) t fp → hvals h !! p = Some v →
  (v_type v = ArrayType ∧ v_obj v = None ∧ ∃ ts fps, array_elems t = Some ts ∧ rep_list h (arr_of v) ts fps ∧
      fp = LArr p :: fps ∧ (v_arr v = None → t = TNilArr) ∧ (v_arr v ≠ None → t = TArr ts)) ∨
  (v_type v ≠ ArrayType ∧ array_elems t = None).
Proof.
  intros H Hp. unfold arr_of. inversion H; simplify_eq.
  - right. match goal with H : scalar_tree _ = _ |- _ => rename H into Hs end.
    split; [by eapply scalar_tree_not_array|]. apply scalar_tree_scalar in Hs. by destruct t.
  - left. split; [done|]. split; [done|].
    match goal with H : v_arr v = None |- _ => rewrite H end.
    exists [], []. split_and!; try done; constructor.
  - left. split; [done|]. split; [done|].
    match goal with H : v_arr v = Some _ |- _ => rewrite H end.
    eexists _, _. split_and!; try done.
  - right. split; [|done]. match goal with H : v_type v = ObjectType |- _ => by rewrite H end.
  - right. split; [|done]. match goal with H : v_type v = ObjectType |- _ => by rewrite H end.
Qed.

Lemma rep_type_null h p t fp v :
  rep h (Some p) t fp → hvals h !! p = Some v → v_type v = NullType ↔ t = TNull.
Proof.
  intros H Hp. inversion H; simplify_eq.
  - match goal with H : scalar_tree _ = _ |- _ => rename H into Hs end.
    unfold scalar_tree in Hs. split.
    + intros Ht. rewrite Ht in Hs. destruct (v_obj v); [done|]. simpl in Hs. congruence.
    + intros ->. destruct (v_obj v); [done|].
      repeat match type of Hs with context [N.eqb ?a ?b] =>
        destruct (N.eqb_spec a b); try congruence end.
  - split; [intros Ht|done]. match goal with H : v_type v = ArrayType |- _ => by rewrite Ht in H end.
  - split; [intros Ht|done]. match goal with H : v_type v = ArrayType |- _ => by rewrite Ht in H end.
  - split; [intros Ht|done]. match goal with H : v_type v = ObjectType |- _ => by rewrite Ht in H end.
  - split; [intros Ht|done]. match goal with H : v_type v = ObjectType |- _ => by rewrite Ht in H end.
Qed.

Lemma rep_list_app h l1 l2 ts1 ts2 f1 f2 :
  rep_list h l1 ts1 f1 → rep_list h l2 ts2 f2 → rep_list h (l1 ++ l2) (ts1 ++ ts2) (f1 ++ f2).
Proof.
  intros H1 H2. induction H1; simpl; [done|]. rewrite <-(assoc_L (++)). by constructor.
Qed.

(** Extending an array cell. *)
Lemma array_extend h q v t fpt add tsadd fpadd :
  hvals h !! q = Some v → v_type v = ArrayType → rep h (Some q) t fpt → NoDup fpt →
  rep_list h add tsadd fpadd → LArr q ∉ fpadd →
  ∃ ts t', array_elems t = Some ts ∧ array_elems t' = Some (ts ++ tsadd) ∧
    let h1 := set_val h q (with_arr v (match add with [] => v_arr v | _ => Some (arr_of v ++ add) end)) in
    rep h1 (Some q) t' (fpt ++ fpadd) ∧ stable h h1 (λ l, l = LArr q).
Proof.
  intros Hq Hty Hr Hnd Hadd Hni.
  assert (stable h (set_val h q (with_arr v (match add with [] => v_arr v | _ => Some (arr_of v ++ add) end)))
            (λ l, l = LArr q)) as Hst by (by eapply stable_set_val).
  destruct (rep_type_array h q t fpt v Hr Hq) as [(_ & Hobj & ts & fps & He & Hl & -> & Hn1 & Hn2)|[? _]]; [|done].
  exists ts. destruct add as [|a add].
  - inversion Hadd; subst. exists t. split; [done|]. rewrite !app_nil_r. split; [done|].
    split; [|done].
    assert (set_val h q (with_arr v (v_arr v)) = h) as ->; [|done].
    unfold set_val. destruct v; simpl. rewrite list_insert_id by done. by destruct h.
  - exists (TArr (ts ++ tsadd)). split; [done|]. split; [done|]. split; [|done].
    simpl. apply NoDup_cons in Hnd as [Hnq _].
    eapply (rep_arr _ q (with_arr v (Some (arr_of v ++ a :: add)))); try done.
    + simpl. apply list_lookup_insert. by eapply lookup_lt_Some.
    + apply rep_list_app; (eapply rep_list_frame; [done|exact Hst|]); by intros l Hl' ->.
Qed.

Lemma tclean_elems t ts : tclean t → array_elems t = Some ts → Forall tclean ts.
Proof.
  intros Ht He. destruct t; simpl in He; simplify_eq; [constructor|]. by apply tclean_arr.
Qed.
Lemma elems_tclean t ts : array_elems t = Some ts → Forall tclean ts → tclean t.
Proof. intros He HF. destruct t; simpl in He; simplify_eq; [done|]. by apply tclean_arr. Qed.
