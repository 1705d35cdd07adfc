(** * Heaps equal up to addresses, and programs that cannot tell them apart. *)
From Verif Require Export EventShared PipelineFacts.

(** A pairing of the addresses of two heaps. *)
Record bij : Type := mkBij { bp : ptr → ptr → Prop; bm : mref → mref → Prop }.

Definition sub (b b' : bij) : Prop :=
  (∀ p q, bp b p q → bp b' p q) ∧ (∀ r s, bm b r s → bm b' r s).

Definition orel {A B} (R : A → B → Prop) (x : option A) (y : option B) : Prop :=
  match x, y with
  | None, None => True
  | Some a, Some b => R a b
  | _, _ => False
  end.

Definition map_rel (b : bij) (m1 m2 : gomap (option ptr)) : Prop :=
  Forall2 (λ x y, x.1 = y.1 ∧ orel (bp b) x.2 y.2) m1 m2.

Definition val_rel (b : bij) (v1 v2 : Value) : Prop :=
  v_int v1 = v_int v2 ∧ v_uint v1 = v_uint v2 ∧ v_float v1 = v_float v2 ∧ v_ts v1 = v_ts v2 ∧
  v_str v1 = v_str v2 ∧ v_bool v1 = v_bool v2 ∧ v_type v1 = v_type v2 ∧
  orel (Forall2 (orel (bp b))) (v_arr v1) (v_arr v2) ∧ orel (bm b) (v_obj v1) (v_obj v2).

Record iso (b : bij) (h1 h2 : heap) : Prop := mkIso {
  iso_pl : ∀ p q q', bp b p q → bp b p q' → q = q';
  iso_pr : ∀ p p' q, bp b p q → bp b p' q → p = p';
  iso_ml : ∀ p q q', bm b p q → bm b p q' → q = q';
  iso_mr : ∀ p p' q, bm b p q → bm b p' q → p = p';
  iso_val : ∀ p q, bp b p q → ∃ v1 v2, hvals h1 !! p = Some v1 ∧ hvals h2 !! q = Some v2 ∧ val_rel b v1 v2;
  iso_map : ∀ r s, bm b r s → ∃ m1 m2, hmaps h1 !! r = Some m1 ∧ hmaps h2 !! s = Some m2 ∧ map_rel b m1 m2
}.

Definition ev_rel (b : bij) (e1 e2 : event) : Prop := orel (bm b) (fields e1) (fields e2).

Lemma sub_refl b : sub b b.
Proof. by split. Qed.
Lemma sub_trans b1 b2 b3 : sub b1 b2 → sub b2 b3 → sub b1 b3.
Proof. intros [H1 H2] [H3 H4]. split; auto. Qed.

Lemma orel_mono {A B} (R R' : A → B → Prop) x y :
  (∀ a b, R a b → R' a b) → orel R x y → orel R' x y.
Proof. destruct x, y; simpl; auto. Qed.

Lemma optr_mono b b' x y : sub b b' → orel (bp b) x y → orel (bp b') x y.
Proof. intros [H _]. by apply orel_mono. Qed.
Lemma omap_mono b b' x y : sub b b' → orel (bm b) x y → orel (bm b') x y.
Proof. intros [_ H]. by apply orel_mono. Qed.
Lemma map_rel_mono b b' m1 m2 : sub b b' → map_rel b m1 m2 → map_rel b' m1 m2.
Proof.
  intros Hs H. eapply Forall2_impl; [exact H|]. intros x y [? ?]. split; [done|by eapply optr_mono].
Qed.
Lemma val_rel_mono b b' v1 v2 : sub b b' → val_rel b v1 v2 → val_rel b' v1 v2.
Proof.
  intros Hs (?&?&?&?&?&?&?&Ha&Ho). unfold val_rel. split_and!; try done; [|by eapply omap_mono].
  eapply orel_mono; [|exact Ha]. intros l1 l2 Hl. eapply Forall2_impl; [exact Hl|].
  intros x y Hxy. by eapply optr_mono.
Qed.

(** ** Allocation *)
Definition add_p (b : bij) (p q : ptr) : bij := mkBij (λ x y, bp b x y ∨ (x = p ∧ y = q)) (bm b).
Definition add_m (b : bij) (r s : mref) : bij := mkBij (bp b) (λ x y, bm b x y ∨ (x = r ∧ y = s)).

Lemma sub_add_p b p q : sub b (add_p b p q).
Proof. split; simpl; auto. Qed.
Lemma sub_add_m b r s : sub b (add_m b r s).
Proof. split; simpl; auto. Qed.

Lemma iso_bounds b h1 h2 : iso b h1 h2 →
  (∀ p q, bp b p q → p < length (hvals h1) ∧ q < length (hvals h2)) ∧
  (∀ r s, bm b r s → r < length (hmaps h1) ∧ s < length (hmaps h2)).
Proof.
  intros Hi. split.
  - intros p q H. destruct (iso_val _ _ _ Hi _ _ H) as (v1 & v2 & H1 & H2 & _).
    split; by eapply lookup_lt_Some.
  - intros p q H. destruct (iso_map _ _ _ Hi _ _ H) as (v1 & v2 & H1 & H2 & _).
    split; by eapply lookup_lt_Some.
Qed.

Lemma iso_alloc_val b h1 h2 v1 v2 :
  iso b h1 h2 → val_rel b v1 v2 →
  let b' := add_p b (length (hvals h1)) (length (hvals h2)) in
  iso b' (alloc_val h1 v1).1 (alloc_val h2 v2).1 ∧ sub b b' ∧
  bp b' (alloc_val h1 v1).2 (alloc_val h2 v2).2.
Proof.
  intros Hi Hv b'. destruct (iso_bounds _ _ _ Hi) as [Hbp Hbm].
  assert (sub b b') as Hs by apply sub_add_p. split; [|split; [done|simpl; auto]].
  split; simpl.
  - intros p q q' [H|[Ha Hb]] [H'|[Ha' Hb']]; subst; try done;
      [by eapply iso_pl|apply Hbp in H; lia|apply Hbp in H'; lia].
  - intros p p' q [H|[Ha Hb]] [H'|[Ha' Hb']]; subst; try done;
      [by eapply iso_pr|apply Hbp in H; lia|apply Hbp in H'; lia].
  - apply (iso_ml _ _ _ Hi).
  - apply (iso_mr _ _ _ Hi).
  - intros p q [H|[-> ->]].
    + destruct (iso_val _ _ _ Hi _ _ H) as (x1 & x2 & H1 & H2 & Hx). exists x1, x2.
      split_and!; [by apply lookup_app_l_Some..|by eapply val_rel_mono].
    + exists v1, v2. rewrite !lookup_app_r, !Nat.sub_diag by apply Nat.le_refl.
      split_and!; [done|done|by eapply val_rel_mono].
  - intros r s H. destruct (iso_map _ _ _ Hi _ _ H) as (x1 & x2 & H1 & H2 & Hx). exists x1, x2.
    split_and!; [done|done|by eapply map_rel_mono].
Qed.

Lemma iso_alloc_map_with b h1 h2 m1 m2 :
  iso b h1 h2 → map_rel b m1 m2 →
  let b' := add_m b (length (hmaps h1)) (length (hmaps h2)) in
  iso b' (alloc_map_with h1 m1).1 (alloc_map_with h2 m2).1 ∧ sub b b' ∧
  bm b' (alloc_map_with h1 m1).2 (alloc_map_with h2 m2).2.
Proof.
  intros Hi Hv b'. destruct (iso_bounds _ _ _ Hi) as [Hbp Hbm].
  assert (sub b b') as Hs by apply sub_add_m. split; [|split; [done|simpl; auto]].
  split; simpl.
  - apply (iso_pl _ _ _ Hi).
  - apply (iso_pr _ _ _ Hi).
  - intros p q q' [H|[Ha Hb]] [H'|[Ha' Hb']]; subst; try done;
      [by eapply iso_ml|apply Hbm in H; lia|apply Hbm in H'; lia].
  - intros p p' q [H|[Ha Hb]] [H'|[Ha' Hb']]; subst; try done;
      [by eapply iso_mr|apply Hbm in H; lia|apply Hbm in H'; lia].
  - intros r s H. destruct (iso_val _ _ _ Hi _ _ H) as (x1 & x2 & H1 & H2 & Hx). exists x1, x2.
    split_and!; [done|done|by eapply val_rel_mono].
  - intros p q [H|[-> ->]].
    + destruct (iso_map _ _ _ Hi _ _ H) as (x1 & x2 & H1 & H2 & Hx). exists x1, x2.
      split_and!; [by apply lookup_app_l_Some..|by eapply map_rel_mono].
    + exists m1, m2. rewrite !lookup_app_r, !Nat.sub_diag by apply Nat.le_refl.
      split_and!; [done|done|by eapply map_rel_mono].
Qed.

Lemma iso_alloc_map b h1 h2 :
  iso b h1 h2 →
  let b' := add_m b (length (hmaps h1)) (length (hmaps h2)) in
  iso b' (alloc_map h1).1 (alloc_map h2).1 ∧ sub b b' ∧ bm b' (alloc_map h1).2 (alloc_map h2).2.
Proof. intros Hi. apply (iso_alloc_map_with b h1 h2 [] []); [done|constructor]. Qed.

(** ** Reading and writing *)
Lemma iso_map_of b h1 h2 r s :
  iso b h1 h2 → orel (bm b) r s → map_rel b (map_of h1 r) (map_of h2 s).
Proof.
  intros Hi H. destruct r, s; simpl in *; try done; [|constructor].
  destruct (iso_map _ _ _ Hi _ _ H) as (x1 & x2 & -> & -> & Hx). done.
Qed.

Lemma map_rel_get b m1 m2 k : map_rel b m1 m2 → orel (orel (bp b)) (mget k m1) (mget k m2).
Proof.
  induction 1 as [|[k1 x] [k2 y] m1 m2 [Hk Hxy] _ IH]; simpl in *; [done|]. subst k2.
  by destruct (String.eqb k k1).
Qed.

Lemma map_rel_set b m1 m2 k x y :
  map_rel b m1 m2 → orel (bp b) x y → map_rel b (mset k x m1) (mset k y m2).
Proof.
  intros H Hxy. induction H as [|[k1 x1] [k2 y1] m1 m2 [Hk Hx] Hm IH]; simpl in *;
    [by repeat constructor|]. subst k2.
  destruct (String.compare k k1).
  - constructor; [done|done].
  - constructor; [done|]. constructor; done.
  - constructor; done.
Qed.

Lemma map_rel_del b m1 m2 k : map_rel b m1 m2 → map_rel b (mdel k m1) (mdel k m2).
Proof.
  intros H. induction H as [|[k1 x1] [k2 y1] m1 m2 [Hk Hx] Hm IH]; simpl in *; [constructor|]. subst k2.
  destruct (String.eqb k k1); [done|by constructor].
Qed.

Definition out_rel {A B} (R : A → B → Prop) (x : Outcome A) (y : Outcome B) : Prop :=
  match x, y with Panic, Panic => True | Ok a, Ok b => R a b | _, _ => False end.

Lemma iso_deref b h1 h2 p q :
  iso b h1 h2 → orel (bp b) p q → out_rel (val_rel b) (deref h1 p) (deref h2 q).
Proof.
  intros Hi H. destruct p, q; simpl in *; try done.
  destruct (iso_val _ _ _ Hi _ _ H) as (x1 & x2 & -> & -> & Hx). done.
Qed.

Lemma iso_set_val b h1 h2 p q v1 v2 :
  iso b h1 h2 → bp b p q → val_rel b v1 v2 → iso b (set_val h1 p v1) (set_val h2 q v2).
Proof.
  intros Hi Hp Hv. destruct (iso_bounds _ _ _ Hi) as [Hbp Hbm]. split; simpl; try apply Hi.
  intros p' q' H. destruct (decide (p' = p)) as [->|Hne].
  - assert (q' = q) as -> by (by eapply (iso_pl _ _ _ Hi)). apply Hbp in H as [? ?].
    exists v1, v2. split_and!; [by apply list_lookup_insert..|done].
  - assert (q' ≠ q) as Hne' by (intros ->; apply Hne; by eapply (iso_pr _ _ _ Hi)).
    destruct (iso_val _ _ _ Hi _ _ H) as (x1 & x2 & ? & ? & Hx). exists x1, x2.
    rewrite !list_lookup_insert_ne by done. done.
Qed.

Lemma iso_set_map b h1 h2 r s m1 m2 :
  iso b h1 h2 → bm b r s → map_rel b m1 m2 →
  iso b (mkHeap (hvals h1) (<[r := m1]> (hmaps h1))) (mkHeap (hvals h2) (<[s := m2]> (hmaps h2))).
Proof.
  intros Hi Hp Hv. destruct (iso_bounds _ _ _ Hi) as [Hbp Hbm]. split; simpl; try apply Hi.
  intros p' q' H. destruct (decide (p' = r)) as [->|Hne].
  - assert (q' = s) as -> by (by eapply (iso_ml _ _ _ Hi)). apply Hbm in H as [? ?].
    exists m1, m2. split_and!; [by apply list_lookup_insert..|done].
  - assert (q' ≠ s) as Hne' by (intros ->; apply Hne; by eapply (iso_mr _ _ _ Hi)).
    destruct (iso_map _ _ _ Hi _ _ H) as (x1 & x2 & ? & ? & Hx). exists x1, x2.
    rewrite !list_lookup_insert_ne by done. done.
Qed.

Lemma iso_map_write b h1 h2 r s k x y :
  iso b h1 h2 → orel (bm b) r s → orel (bp b) x y →
  out_rel (iso b) (map_write h1 r k x) (map_write h2 s k y).
Proof.
  intros Hi H Hxy. destruct r as [r|], s as [s|]; simpl in *; try done.
  destruct (iso_map _ _ _ Hi _ _ H) as (x1 & x2 & -> & -> & Hx). simpl.
  apply iso_set_map; [done|done|by apply map_rel_set].
Qed.

Lemma iso_map_delete b h1 h2 r s k :
  iso b h1 h2 → orel (bm b) r s → iso b (map_delete h1 r k) (map_delete h2 s k).
Proof.
  intros Hi H. destruct r as [r|], s as [s|]; simpl in *; try done.
  destruct (iso_map _ _ _ Hi _ _ H) as (x1 & x2 & -> & -> & Hx).
  apply iso_set_map; [done|done|by apply map_rel_del].
Qed.

(** ** The event operations *)
Lemma iso_get_loop b h1 h2 path : iso b h1 h2 → ∀ r s, orel (bm b) r s →
  out_rel (orel (bp b)) (get_loop h1 r path) (get_loop h2 s path).
Proof.
  intros Hi. induction path as [|k rest IH]; intros r s Hr; [done|].
  pose proof (map_rel_get b _ _ k (iso_map_of b h1 h2 r s Hi Hr)) as Hg.
  destruct rest as [|k2 rest].
  { cbn [get_loop]. destruct (mget k (map_of h1 r)), (mget k (map_of h2 s)); done. }
  rewrite !get_loop_cons.
  destruct (mget k (map_of h1 r)) as [x|], (mget k (map_of h2 s)) as [y|]; simpl in Hg; try done.
  pose proof (iso_deref b h1 h2 x y Hi Hg) as Hd.
  destruct (deref h1 x) as [v1|], (deref h2 y) as [v2|]; simpl in Hd; try done.
  destruct Hd as (_&_&_&_&_&_&_&_&Ho).
  pose proof (iso_map_of b h1 h2 _ _ Hi Ho) as Hm.
  destruct (map_of h1 (v_obj v1)), (map_of h2 (v_obj v2)); try by inversion Hm.
  by apply IH.
Qed.

Definition get_rel (b : bij) (x y : heap * option ptr) : Prop :=
  ∃ b', sub b b' ∧ iso b' x.1 y.1 ∧ orel (bp b') x.2 y.2.

Lemma iso_get_path b h1 h2 e1 e2 path :
  iso b h1 h2 → ev_rel b e1 e2 →
  out_rel (get_rel b) (get_path h1 e1 path) (get_path h2 e2 path).
Proof.
  intros Hi He. unfold get_path. pose proof (iso_map_of b h1 h2 _ _ Hi He) as Hm.
  destruct (map_of h1 (fields e1)), (map_of h2 (fields e2)); try by inversion Hm.
  { exists b. split; [apply sub_refl|]. done. }
  destruct path as [|k path].
  - assert (val_rel b (mkObject (fields e1)) (mkObject (fields e2))) as Hv by done.
    destruct (iso_alloc_val b h1 h2 _ _ Hi Hv) as (Hi' & Hs & Hp). simpl in *.
    by eexists.
  - pose proof (iso_get_loop b h1 h2 (k :: path) Hi _ _ He) as Hg.
    destruct (get_loop h1 _ _), (get_loop h2 _ _); simpl in *; try done.
    exists b. split; [apply sub_refl|]. done.
Qed.

Definition loop_rel (b : bij) (x y : heap * option goerr) : Prop :=
  (∃ b', sub b b' ∧ iso b' x.1 y.1) ∧ x.2 = y.2.

Lemma iso_put_loop full path : ∀ b h1 h2 r s v1 v2,
  iso b h1 h2 → orel (bm b) r s → orel (bp b) v1 v2 →
  out_rel (loop_rel b) (put_loop full h1 r path v1) (put_loop full h2 s path v2).
Proof.
  induction path as [|k rest IH]; intros b h1 h2 r s v1 v2 Hi Hr Hv.
  { split; [|done]. exists b. split; [apply sub_refl|done]. }
  pose proof (map_rel_get b _ _ k (iso_map_of b h1 h2 r s Hi Hr)) as Hg.
  destruct rest as [|k2 rest].
  { cbn [put_loop]. pose proof (iso_map_write b h1 h2 r s k v1 v2 Hi Hr Hv) as Hw.
    destruct (map_write h1 r k v1), (map_write h2 s k v2); simpl in *; try done.
    split; [|done]. exists b. split; [apply sub_refl|done]. }
  rewrite !put_loop_cons.
  destruct (mget k (map_of h1 r)) as [x|], (mget k (map_of h2 s)) as [y|]; simpl in Hg; try done.
  - pose proof (iso_deref b h1 h2 x y Hi Hg) as Hd.
    destruct (deref h1 x) as [w1|], (deref h2 y) as [w2|]; simpl in Hd; try done.
    destruct Hd as (_&_&_&_&_&_&Ht&_&Ho). rewrite Ht.
    destruct (N.eqb (v_type w2) ObjectType); [by apply IH|].
    split; [|done]. exists b. split; [apply sub_refl|done].
  - destruct (iso_alloc_map b h1 h2 Hi) as (Hi1 & Hs1 & Hm1).
    destruct (alloc_map h1) as [h1a r1], (alloc_map h2) as [h2a s1]. simpl in Hi1, Hm1.
    set (b1 := add_m b (length (hmaps h1)) (length (hmaps h2))) in *.
    assert (val_rel b1 (mkObject (Some r1)) (mkObject (Some s1))) as Hv1.
    { unfold val_rel. simpl. split_and!; try done. }
    destruct (iso_alloc_val b1 h1a h2a _ _ Hi1 Hv1) as (Hi2 & Hs2 & Hp2).
    destruct (alloc_val h1a _) as [h1b p1], (alloc_val h2a _) as [h2b q1].
    simpl in Hi2, Hp2.
    set (b2 := add_p b1 (length (hvals h1a)) (length (hvals h2a))) in *.
    assert (sub b b2) as Hs by (by eapply sub_trans).
    pose proof (iso_map_write b2 h1b h2b r s k (Some p1) (Some q1) Hi2 (omap_mono _ _ _ _ Hs Hr) Hp2) as Hw.
    destruct (map_write h1b r k (Some p1)) as [h1c|], (map_write h2b s k (Some q1)) as [h2c|]; simpl in Hw; try done.
    specialize (IH b2 h1c h2c (Some r1) (Some s1) v1 v2 Hw (proj2 Hs2 _ _ Hm1) (optr_mono _ _ _ _ Hs Hv)).
    destruct (put_loop full h1c _ _ _) as [[h1d er1]|], (put_loop full h2c _ _ _) as [[h2d er2]|]; try done.
    destruct IH as [(b' & Hb' & Hi') ?].
    split; [|done]. exists b'. split; [|done]. by eapply sub_trans.
Qed.

Definition put_rel (b : bij) (x y : put_result) : Prop :=
  (∃ b', sub b b' ∧ iso b' (put_heap x) (put_heap y) ∧ ev_rel b' (put_event x) (put_event y) ∧
     orel (bp b') (put_old x) (put_old y)) ∧ put_err x = put_err y.

Lemma iso_put b h1 h2 e1 e2 path v1 v2 ow :
  iso b h1 h2 → ev_rel b e1 e2 → orel (bp b) v1 v2 →
  out_rel (put_rel b) (put h1 e1 path v1 ow) (put h2 e2 path v2 ow).
Proof.
  intros Hi He Hv. unfold put. destruct path as [|k path].
  { split; [|done]. exists b. split; [apply sub_refl|]. done. }
  destruct v1 as [p1|], v2 as [p2|]; simpl in Hv; try done.
  2:{ split; [|done]. exists b. split; [apply sub_refl|]. done. }
  set (i1 := match fields e1 with Some _ => (h1, e1) | None => let '(h1, r) := alloc_map h1 in (h1, mkEvent (Some r)) end).
  set (i2 := match fields e2 with Some _ => (h2, e2) | None => let '(h1, r) := alloc_map h2 in (h1, mkEvent (Some r)) end).
  assert (∃ b1, sub b b1 ∧ iso b1 i1.1 i2.1 ∧ ev_rel b1 i1.2 i2.2) as (b1 & Hs1 & Hi1 & He1).
  { unfold ev_rel in He. subst i1 i2. destruct (fields e1) eqn:E1, (fields e2) eqn:E2; simpl in He; try done.
    - exists b. split_and!; [apply sub_refl|done|]. unfold ev_rel. simpl. by rewrite E1, E2.
    - destruct (iso_alloc_map b h1 h2 Hi) as (Hi1 & Hs1 & Hm1).
      destruct (alloc_map h1) as [h1a r1], (alloc_map h2) as [h2a s1]. by eexists. }
  destruct i1 as [h1a e1a], i2 as [h2a e2a]. simpl in Hi1, He1. clear Hi He.
  pose proof (iso_get_path b1 h1a h2a e1a e2a (k :: path) Hi1 He1) as Hg.
  destruct (get_path h1a e1a _) as [[h1b o1]|], (get_path h2a e2a _) as [[h2b o2]|]; simpl in Hg; try done.
  destruct Hg as (b2 & Hs2 & Hi2 & Ho). simpl in Hi2, Ho.
  assert ((match o1 with Some _ => true | None => false end) = (match o2 with Some _ => true | None => false end)) as Heq.
  { by destruct o1, o2. }
  rewrite Heq. destruct ((match o2 with Some _ => true | None => false end) && negb ow).
  { split; [|done]. exists b2. split_and!; [by eapply sub_trans|done|by eapply omap_mono|done]. }
  assert (sub b b2) as Hs by (by eapply sub_trans).
  pose proof (iso_put_loop (k :: path) (k :: path) b2 h1b h2b (fields e1a) (fields e2a) (Some p1) (Some p2)
    Hi2 (omap_mono _ _ _ _ Hs2 He1) (optr_mono _ _ (Some p1) (Some p2) Hs Hv)) as Hp.
  destruct (put_loop (k :: path) h1b _ _ _) as [[h1c [er1|]]|], (put_loop (k :: path) h2b _ _ _) as [[h2c [er2|]]|];
    simpl in Hp; try done; destruct Hp as [(b3 & Hs3 & Hi3) Her]; simpl in *; try done; simplify_eq.
  - split; [|done]. exists b3. split_and!; [by eapply sub_trans|done| |done].
    exact (omap_mono _ _ _ _ Hs3 (omap_mono _ _ _ _ Hs2 He1)).
  - split; [|done]. exists b3. split_and!; [by eapply sub_trans|done| |exact (optr_mono _ _ _ _ Hs3 Ho)].
    exact (omap_mono _ _ _ _ Hs3 (omap_mono _ _ _ _ Hs2 He1)).
Qed.

Lemma iso_delete_path b h1 h2 e1 e2 path :
  iso b h1 h2 → ev_rel b e1 e2 →
  out_rel (get_rel b) (delete_path h1 e1 path) (delete_path h2 e2 path).
Proof.
  intros Hi He. unfold delete_path. destruct path as [|k path].
  { exists b. split; [apply sub_refl|]. done. }
  pose proof (iso_map_of b h1 h2 _ _ Hi He) as Hm.
  destruct (map_of h1 (fields e1)), (map_of h2 (fields e2)); try by inversion Hm.
  { exists b. split; [apply sub_refl|]. done. }
  pose proof (iso_get_path b h1 h2 e1 e2 (k :: path) Hi He) as Hg.
  destruct (get_path h1 e1 _) as [[h1b o1]|], (get_path h2 e2 _) as [[h2b o2]|]; simpl in Hg; try done.
  destruct Hg as (b2 & Hs2 & Hi2 & Ho). simpl in Hi2, Ho.
  destruct o1, o2; simpl in Ho; try done; simpl; exists b2.
  - split_and!; [done| |done]. simpl. apply iso_map_delete; [done|]. by eapply omap_mono.
  - done.
Qed.

(** ** Building values *)
Lemma iso_alloc_tree t : ∀ b h1 h2, iso b h1 h2 → get_rel b (alloc_tree h1 t) (alloc_tree h2 t).
Proof.
  assert (∀ b h1 h2 v1 v2, iso b h1 h2 → val_rel b v1 v2 → get_rel b (alloc_some h1 v1) (alloc_some h2 v2)) as Hsome.
  { intros b h1 h2 v1 v2 Hi Hv. destruct (iso_alloc_val b h1 h2 v1 v2 Hi Hv) as (?&?&?). by eexists. }
  induction t as [| | | | | | | | |l IH| |m IH] using tree_ind'; intros be h1 h2 Hi; try (by apply Hsome).
  - exists be. split; [apply sub_refl|]. done.
  - rewrite !alloc_tree_arr.
    assert (∀ b h1 h2, iso b h1 h2 → ∃ b', sub b b' ∧ iso b' (alloc_list h1 l).1 (alloc_list h2 l).1 ∧
      Forall2 (orel (bp b')) (alloc_list h1 l).2 (alloc_list h2 l).2) as Hl.
    { clear -IH. induction l as [|t l IHl]; intros b h1 h2 Hi; simpl.
      - exists b. split; [apply sub_refl|]. split; [done|constructor].
      - apply Forall_cons in IH as [Ht IH]. destruct (Ht b h1 h2 Hi) as (b1 & Hs1 & Hi1 & Ho).
        destruct (alloc_tree h1 t) as [h1a o1], (alloc_tree h2 t) as [h2a o2]. simpl in Hi1, Ho.
        destruct (IHl IH b1 h1a h2a Hi1) as (b2 & Hs2 & Hi2 & Hl2).
        destruct (alloc_list h1a l) as [h1b l1], (alloc_list h2a l) as [h2b l2]. simpl in *.
        exists b2. split_and!; [by eapply sub_trans|done|]. constructor; [by eapply optr_mono|done]. }
    destruct (Hl be h1 h2 Hi) as (b1 & Hs1 & Hi1 & Hl1).
    destruct (alloc_list h1 l) as [h1a l1], (alloc_list h2 l) as [h2a l2]. simpl in *.
    destruct (Hsome b1 h1a h2a (mkValue 0 0 0 0 "" (Some l1) None false ArrayType)
               (mkValue 0 0 0 0 "" (Some l2) None false ArrayType) Hi1) as (b2 & ? & ?).
    { unfold val_rel. simpl. by split_and!. }
    exists b2. split; [by eapply sub_trans|done].
  - rewrite !alloc_tree_obj.
    assert (∀ b h1 h2, iso b h1 h2 → ∃ b', sub b b' ∧ iso b' (alloc_assoc h1 m).1 (alloc_assoc h2 m).1 ∧
      map_rel b' (alloc_assoc h1 m).2 (alloc_assoc h2 m).2) as Hl.
    { clear -IH. induction m as [|[k t] m IHl]; intros b h1 h2 Hi; simpl.
      - exists b. split; [apply sub_refl|]. split; [done|constructor].
      - apply Forall_cons in IH as [Ht IH]. destruct (Ht b h1 h2 Hi) as (b1 & Hs1 & Hi1 & Ho). simpl in *.
        destruct (alloc_tree h1 t) as [h1a o1], (alloc_tree h2 t) as [h2a o2]. simpl in Hi1, Ho.
        destruct (IHl IH b1 h1a h2a Hi1) as (b2 & Hs2 & Hi2 & Hl2).
        destruct (alloc_assoc h1a m) as [h1b l1], (alloc_assoc h2a m) as [h2b l2]. simpl in *.
        exists b2. split_and!; [by eapply sub_trans|done|]. constructor; [|done]. split; [done|by eapply optr_mono]. }
    destruct (Hl be h1 h2 Hi) as (b1 & Hs1 & Hi1 & Hl1).
    destruct (alloc_assoc h1 m) as [h1a l1], (alloc_assoc h2 m) as [h2a l2]. simpl in Hi1, Hl1.
    destruct (iso_alloc_map_with b1 h1a h2a l1 l2 Hi1 Hl1) as (Hi2 & Hs2 & Hm2).
    destruct (alloc_map_with h1a l1) as [h1b r1], (alloc_map_with h2a l2) as [h2b r2]. simpl in Hi2, Hm2.
    match type of Hi2 with iso ?x _ _ => set (b2 := x) in * end.
    destruct (Hsome b2 h1b h2b (mkObject (Some r1)) (mkObject (Some r2)) Hi2) as (b3 & ? & ?).
    { unfold val_rel. simpl. by split_and!. }
    exists b3. split; [|done]. eapply sub_trans; [exact Hs1|]. by eapply sub_trans.
Qed.
