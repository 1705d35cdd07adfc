(** * Goroutines working on different events do not disturb each other: lemmas.

    Iso.v and IsoRun.v again, one step at a time, together with what a step may
    change: only cells the goroutine reaches (those paired by its bijection), and no
    plain value. *)
From Verif Require Export Conc Isolation.

(** [h'] comes from [h] by changing cells paired by [b] that hold no plain value, and
    by allocating; [b'] extends [b] by new cells. *)
Record owned (b : bij) (h : heap) (b' : bij) (h' : heap) : Prop := mkOwned {
  ow_sub : sub b b';
  ow_lv : length (hvals h) ≤ length (hvals h');
  ow_lm : length (hmaps h) ≤ length (hmaps h');
  ow_p : ∀ p q, bp b' p q → bp b p q ∨ length (hvals h) ≤ p;
  ow_m : ∀ r s, bm b' r s → bm b r s ∨ length (hmaps h) ≤ r;
  ow_v : ∀ p v, hvals h !! p = Some v → (∀ q, ¬ bp b p q) → hvals h' !! p = Some v;
  ow_mp : ∀ r m, hmaps h !! r = Some m → (∀ s, ¬ bm b r s) → hmaps h' !! r = Some m;
  ow_plain : ∀ p v, hvals h !! p = Some v → plain v → hvals h' !! p = Some v
}.

Lemma owned_refl b h : owned b h b h.
Proof. split; auto. apply sub_refl. Qed.

Lemma owned_trans b1 h1 b2 h2 b3 h3 : owned b1 h1 b2 h2 → owned b2 h2 b3 h3 → owned b1 h1 b3 h3.
Proof.
  intros H H'. split.
  - eapply sub_trans; [apply H|apply H'].
  - etrans; [apply H|apply H'].
  - etrans; [apply H|apply H'].
  - intros p q [Hp|Hp]%(ow_p _ _ _ _ H'); [by apply (ow_p _ _ _ _ H)|]. right. pose proof (ow_lv _ _ _ _ H). lia.
  - intros p q [Hp|Hp]%(ow_m _ _ _ _ H'); [by apply (ow_m _ _ _ _ H)|]. right. pose proof (ow_lm _ _ _ _ H). lia.
  - intros p v Hv Hn. apply (ow_v _ _ _ _ H'); [by apply (ow_v _ _ _ _ H)|].
    intros q [Hp|Hp]%(ow_p _ _ _ _ H); [by eapply Hn|]. apply lookup_lt_Some in Hv. lia.
  - intros p v Hv Hn. apply (ow_mp _ _ _ _ H'); [by apply (ow_mp _ _ _ _ H)|].
    intros q [Hp|Hp]%(ow_m _ _ _ _ H); [by eapply Hn|]. apply lookup_lt_Some in Hv. lia.
  - intros p v Hv Hn. apply (ow_plain _ _ _ _ H'); [|done]. by apply (ow_plain _ _ _ _ H).
Qed.

Lemma owned_alloc_val b h v q : owned b h (add_p b (length (hvals h)) q) (alloc_val h v).1.
Proof.
  split; simpl.
  - apply sub_add_p.
  - rewrite app_length. lia.
  - done.
  - intros p q' [?|[-> _]]; auto.
  - auto.
  - intros p x Hx _. by apply lookup_app_l_Some.
  - auto.
  - intros p x Hx _. by apply lookup_app_l_Some.
Qed.

Lemma owned_alloc_map b h m s : owned b h (add_m b (length (hmaps h)) s) (alloc_map_with h m).1.
Proof.
  split; simpl.
  - apply sub_add_m.
  - done.
  - rewrite app_length. lia.
  - auto.
  - intros p q' [?|[-> _]]; auto.
  - auto.
  - intros p x Hx _. by apply lookup_app_l_Some.
  - auto.
Qed.

Lemma owned_set_val b h p q v : bp b p q → (∀ x, hvals h !! p = Some x → ¬ plain x) →
  owned b h b (set_val h p v).
Proof.
  intros Hp Hpl. split; simpl; auto.
  - apply sub_refl.
  - by rewrite insert_length.
  - intros p' x Hx Hn. rewrite list_lookup_insert_ne; [done|]. intros <-. by eapply Hn.
  - intros p' x Hx Hn. rewrite list_lookup_insert_ne; [done|]. intros <-. by eapply Hpl.
Qed.

Lemma owned_set_map b h r s m : bm b r s → owned b h b (mkHeap (hvals h) (<[r := m]> (hmaps h))).
Proof.
  intros Hp. split; simpl; auto.
  - apply sub_refl.
  - by rewrite insert_length.
  - intros p' x Hx Hn. rewrite list_lookup_insert_ne; [done|]. intros <-. by eapply Hn.
Qed.

Lemma owned_map_write b h r s k x h' : orel (bm b) r s → map_write h r k x = Ok h' → owned b h b h'.
Proof.
  intros Hr H. destruct r as [r|], s as [s|]; simpl in *; try done.
  destruct (hmaps h !! r) as [m|]; [|done]. injection H as <-. by eapply owned_set_map.
Qed.
Lemma owned_map_delete b h r s k : orel (bm b) r s → owned b h b (map_delete h r k).
Proof.
  intros Hr. destruct r as [r|], s as [s|]; simpl in *; try done; [|apply owned_refl].
  destruct (hmaps h !! r) as [m|]; [by eapply owned_set_map|apply owned_refl].
Qed.

(** ** The event operations *)
Definition get_own (b : bij) (h1 : heap) (x y : heap * option ptr) : Prop :=
  ∃ b', owned b h1 b' x.1 ∧ iso b' x.1 y.1 ∧ orel (bp b') x.2 y.2.

Lemma own_get_path b h1 h2 e1 e2 path :
  iso b h1 h2 → ev_rel b e1 e2 →
  out_rel (get_own b h1) (get_path h1 e1 path) (get_path h2 e2 path).
Proof.
  intros Hi He. unfold get_path. pose proof (iso_map_of b h1 h2 _ _ Hi He) as Hm.
  destruct (map_of h1 (fields e1)), (map_of h2 (fields e2)); try by inversion Hm.
  { exists b. split; [apply owned_refl|]. done. }
  destruct path as [|k path].
  - assert (val_rel b (mkObject (fields e1)) (mkObject (fields e2))) as Hv by done.
    destruct (iso_alloc_val b h1 h2 _ _ Hi Hv) as (Hi' & _ & Hp).
    eexists. split; [apply owned_alloc_val|]. by split.
  - pose proof (iso_get_loop b h1 h2 (k :: path) Hi _ _ He) as Hg.
    destruct (get_loop h1 _ _), (get_loop h2 _ _); simpl in *; try done.
    exists b. split; [apply owned_refl|]. done.
Qed.

Definition loop_own (b : bij) (h1 : heap) (x y : heap * option goerr) : Prop :=
  (∃ b', owned b h1 b' x.1 ∧ iso b' x.1 y.1) ∧ x.2 = y.2.

Lemma own_put_loop full path : ∀ b h1 h2 r s v1 v2,
  iso b h1 h2 → orel (bm b) r s → orel (bp b) v1 v2 →
  out_rel (loop_own b h1) (put_loop full h1 r path v1) (put_loop full h2 s path v2).
Proof.
  induction path as [|k rest IH]; intros b h1 h2 r s v1 v2 Hi Hr Hv.
  { split; [|done]. exists b. split; [apply owned_refl|done]. }
  pose proof (map_rel_get b _ _ k (iso_map_of b h1 h2 r s Hi Hr)) as Hg.
  destruct rest as [|k2 rest].
  { cbn [put_loop]. pose proof (iso_map_write b h1 h2 r s k v1 v2 Hi Hr Hv) as Hw.
    destruct (map_write h1 r k v1) eqn:E1, (map_write h2 s k v2); simpl in *; try done.
    split; [|done]. exists b. split; [by eapply owned_map_write|done]. }
  rewrite !put_loop_cons.
  destruct (mget k (map_of h1 r)) as [x|], (mget k (map_of h2 s)) as [y|]; simpl in Hg; try done.
  - pose proof (iso_deref b h1 h2 x y Hi Hg) as Hd.
    destruct (deref h1 x) as [w1|], (deref h2 y) as [w2|]; simpl in Hd; try done.
    destruct Hd as (_&_&_&_&_&_&Ht&_&Ho). rewrite Ht.
    destruct (N.eqb (v_type w2) ObjectType); [by apply IH|].
    split; [|done]. exists b. split; [apply owned_refl|done].
  - destruct (iso_alloc_map b h1 h2 Hi) as (Hi1 & Hs1 & Hm1).
    assert (owned b h1 (add_m b (length (hmaps h1)) (length (hmaps h2))) (alloc_map h1).1) as Ho1
      by apply (owned_alloc_map b h1 []).
    destruct (alloc_map h1) as [h1a r1], (alloc_map h2) as [h2a s1]. simpl in Hi1, Hm1, Ho1.
    set (b1 := add_m b (length (hmaps h1)) (length (hmaps h2))) in *.
    assert (val_rel b1 (mkObject (Some r1)) (mkObject (Some s1))) as Hv1.
    { unfold val_rel. simpl. split_and!; try done. }
    destruct (iso_alloc_val b1 h1a h2a _ _ Hi1 Hv1) as (Hi2 & Hs2 & Hp2).
    assert (owned b1 h1a (add_p b1 (length (hvals h1a)) (length (hvals h2a))) (alloc_val h1a (mkObject (Some r1))).1) as Ho2
      by apply owned_alloc_val.
    destruct (alloc_val h1a _) as [h1b p1], (alloc_val h2a _) as [h2b q1].
    simpl in Hi2, Hp2, Ho2.
    set (b2 := add_p b1 (length (hvals h1a)) (length (hvals h2a))) in *.
    assert (sub b b2) as Hs by (by eapply sub_trans).
    pose proof (iso_map_write b2 h1b h2b r s k (Some p1) (Some q1) Hi2 (omap_mono _ _ _ _ Hs Hr) Hp2) as Hw.
    destruct (map_write h1b r k (Some p1)) as [h1c|] eqn:Ew, (map_write h2b s k (Some q1)) as [h2c|]; simpl in Hw; try done.
    pose proof (owned_map_write b2 h1b r s k _ h1c (omap_mono _ _ _ _ Hs Hr) Ew) as Ho3.
    specialize (IH b2 h1c h2c (Some r1) (Some s1) v1 v2 Hw (proj2 Hs2 _ _ Hm1) (optr_mono _ _ _ _ Hs Hv)).
    destruct (put_loop full h1c _ _ _) as [[h1d er1]|], (put_loop full h2c _ _ _) as [[h2d er2]|]; try done.
    destruct IH as [(b' & Hb' & Hi') ?].
    split; [|done]. exists b'. split; [|done].
    eapply owned_trans; [exact Ho1|]. eapply owned_trans; [exact Ho2|]. by eapply owned_trans.
Qed.

Definition put_own (b : bij) (h1 : heap) (x y : put_result) : Prop :=
  (∃ b', owned b h1 b' (put_heap x) ∧ iso b' (put_heap x) (put_heap y) ∧ ev_rel b' (put_event x) (put_event y) ∧
     orel (bp b') (put_old x) (put_old y)) ∧ put_err x = put_err y.

Lemma own_put b h1 h2 e1 e2 path v1 v2 ow :
  iso b h1 h2 → ev_rel b e1 e2 → orel (bp b) v1 v2 →
  out_rel (put_own b h1) (put h1 e1 path v1 ow) (put h2 e2 path v2 ow).
Proof.
  intros Hi He Hv. unfold put. destruct path as [|k path].
  { split; [|done]. exists b. split; [apply owned_refl|]. done. }
  destruct v1 as [p1|], v2 as [p2|]; simpl in Hv; try done.
  2:{ split; [|done]. exists b. split; [apply owned_refl|]. done. }
  set (i1 := match fields e1 with Some _ => (h1, e1) | None => let '(h1, r) := alloc_map h1 in (h1, mkEvent (Some r)) end).
  set (i2 := match fields e2 with Some _ => (h2, e2) | None => let '(h1, r) := alloc_map h2 in (h1, mkEvent (Some r)) end).
  assert (∃ b1, owned b h1 b1 i1.1 ∧ iso b1 i1.1 i2.1 ∧ ev_rel b1 i1.2 i2.2) as (b1 & Hs1 & Hi1 & He1).
  { unfold ev_rel in He. subst i1 i2. destruct (fields e1) eqn:E1, (fields e2) eqn:E2; simpl in He; try done.
    - exists b. split_and!; [apply owned_refl|done|]. unfold ev_rel. simpl. by rewrite E1, E2.
    - destruct (iso_alloc_map b h1 h2 Hi) as (Hi1 & Hs1 & Hm1).
      pose proof (owned_alloc_map b h1 [] (length (hmaps h2))) as Ho1.
      eexists. split; [exact Ho1|]. by split. }
  destruct i1 as [h1a e1a], i2 as [h2a e2a]. simpl in Hi1, He1, Hs1. clear Hi He.
  pose proof (own_get_path b1 h1a h2a e1a e2a (k :: path) Hi1 He1) as Hg.
  destruct (get_path h1a e1a _) as [[h1b o1]|], (get_path h2a e2a _) as [[h2b o2]|]; simpl in Hg; try done.
  destruct Hg as (b2 & Hs2 & Hi2 & Ho). simpl in Hi2, Ho, Hs2.
  assert ((match o1 with Some _ => true | None => false end) = (match o2 with Some _ => true | None => false end)) as Heq.
  { by destruct o1, o2. }
  assert (owned b h1 b2 h1b) as Hs by (by eapply owned_trans).
  rewrite Heq. destruct ((match o2 with Some _ => true | None => false end) && negb ow).
  { split; [|done]. exists b2. split_and!; [done|done|by eapply omap_mono; [apply Hs2|]|done]. }
  pose proof (own_put_loop (k :: path) (k :: path) b2 h1b h2b (fields e1a) (fields e2a) (Some p1) (Some p2)
    Hi2 (omap_mono _ _ _ _ (ow_sub _ _ _ _ Hs2) He1) (optr_mono _ _ (Some p1) (Some p2) (ow_sub _ _ _ _ Hs) Hv)) as Hp.
  destruct (put_loop (k :: path) h1b _ _ _) as [[h1c [er1|]]|], (put_loop (k :: path) h2b _ _ _) as [[h2c [er2|]]|];
    simpl in Hp; try done; destruct Hp as [(b3 & Hs3 & Hi3) Her]; simpl in *; try done; simplify_eq.
  - split; [|done]. exists b3. split_and!; [by eapply owned_trans|done| |done].
    exact (omap_mono _ _ _ _ (ow_sub _ _ _ _ Hs3) (omap_mono _ _ _ _ (ow_sub _ _ _ _ Hs2) He1)).
  - split; [|done]. exists b3. split_and!; [by eapply owned_trans|done| |exact (optr_mono _ _ _ _ (ow_sub _ _ _ _ Hs3) Ho)].
    exact (omap_mono _ _ _ _ (ow_sub _ _ _ _ Hs3) (omap_mono _ _ _ _ (ow_sub _ _ _ _ Hs2) He1)).
Qed.

Lemma own_delete_path b h1 h2 e1 e2 path :
  iso b h1 h2 → ev_rel b e1 e2 →
  out_rel (get_own b h1) (delete_path h1 e1 path) (delete_path h2 e2 path).
Proof.
  intros Hi He. unfold delete_path. destruct path as [|k path].
  { exists b. split; [apply owned_refl|]. done. }
  pose proof (iso_map_of b h1 h2 _ _ Hi He) as Hm.
  destruct (map_of h1 (fields e1)), (map_of h2 (fields e2)); try by inversion Hm.
  { exists b. split; [apply owned_refl|]. done. }
  pose proof (own_get_path b h1 h2 e1 e2 (k :: path) Hi He) as Hg.
  destruct (get_path h1 e1 _) as [[h1b o1]|], (get_path h2 e2 _) as [[h2b o2]|]; simpl in Hg; try done.
  destruct Hg as (b2 & Hs2 & Hi2 & Ho). simpl in Hi2, Ho, Hs2.
  assert (orel (bm b2) (fields e1) (fields e2)) as He2 by (by eapply omap_mono; [apply Hs2|]).
  destruct o1, o2; simpl in Ho; try done; simpl; exists b2.
  - split_and!; [|by apply iso_map_delete|done]. simpl. eapply owned_trans; [exact Hs2|]. by eapply owned_map_delete.
  - done.
Qed.

(** ** Building values *)
Lemma own_alloc_tree t : ∀ b h1 h2, iso b h1 h2 → get_own b h1 (alloc_tree h1 t) (alloc_tree h2 t).
Proof.
  assert (∀ b h1 h2 v1 v2, iso b h1 h2 → val_rel b v1 v2 → get_own b h1 (alloc_some h1 v1) (alloc_some h2 v2)) as Hsome.
  { intros b h1 h2 v1 v2 Hi Hv. destruct (iso_alloc_val b h1 h2 v1 v2 Hi Hv) as (?&?&?).
    eexists. split; [apply owned_alloc_val|]. by split. }
  induction t as [| | | | | | | | |l IH| |m IH] using tree_ind'; intros be h1 h2 Hi; try (by apply Hsome).
  - exists be. split; [apply owned_refl|]. done.
  - rewrite !alloc_tree_arr.
    assert (∀ b h1 h2, iso b h1 h2 → ∃ b', owned b h1 b' (alloc_list h1 l).1 ∧ iso b' (alloc_list h1 l).1 (alloc_list h2 l).1 ∧
      Forall2 (orel (bp b')) (alloc_list h1 l).2 (alloc_list h2 l).2) as Hl.
    { clear -IH. induction l as [|t l IHl]; intros b h1 h2 Hi; simpl.
      - exists b. split; [apply owned_refl|]. split; [done|constructor].
      - apply Forall_cons in IH as [Ht IH]. destruct (Ht b h1 h2 Hi) as (b1 & Hs1 & Hi1 & Ho).
        destruct (alloc_tree h1 t) as [h1a o1], (alloc_tree h2 t) as [h2a o2]. simpl in Hi1, Ho, Hs1.
        destruct (IHl IH b1 h1a h2a Hi1) as (b2 & Hs2 & Hi2 & Hl2).
        destruct (alloc_list h1a l) as [h1b l1], (alloc_list h2a l) as [h2b l2]. simpl in *.
        exists b2. split_and!; [by eapply owned_trans|done|]. constructor; [by eapply optr_mono; [apply Hs2|]|done]. }
    destruct (Hl be h1 h2 Hi) as (b1 & Hs1 & Hi1 & Hl1).
    destruct (alloc_list h1 l) as [h1a l1], (alloc_list h2 l) as [h2a l2]. simpl in *.
    destruct (Hsome b1 h1a h2a (mkValue 0 0 0 0 "" (Some l1) None false ArrayType)
               (mkValue 0 0 0 0 "" (Some l2) None false ArrayType) Hi1) as (b2 & ? & ?).
    { unfold val_rel. simpl. by split_and!. }
    exists b2. split; [by eapply owned_trans|done].
  - rewrite !alloc_tree_obj.
    assert (∀ b h1 h2, iso b h1 h2 → ∃ b', owned b h1 b' (alloc_assoc h1 m).1 ∧ iso b' (alloc_assoc h1 m).1 (alloc_assoc h2 m).1 ∧
      map_rel b' (alloc_assoc h1 m).2 (alloc_assoc h2 m).2) as Hl.
    { clear -IH. induction m as [|[k t] m IHl]; intros b h1 h2 Hi; simpl.
      - exists b. split; [apply owned_refl|]. split; [done|constructor].
      - apply Forall_cons in IH as [Ht IH]. destruct (Ht b h1 h2 Hi) as (b1 & Hs1 & Hi1 & Ho). simpl in *.
        destruct (alloc_tree h1 t) as [h1a o1], (alloc_tree h2 t) as [h2a o2]. simpl in Hi1, Ho, Hs1.
        destruct (IHl IH b1 h1a h2a Hi1) as (b2 & Hs2 & Hi2 & Hl2).
        destruct (alloc_assoc h1a m) as [h1b l1], (alloc_assoc h2a m) as [h2b l2]. simpl in *.
        exists b2. split_and!; [by eapply owned_trans|done|]. constructor; [|done]. split; [done|].
        by eapply optr_mono; [apply Hs2|]. }
    destruct (Hl be h1 h2 Hi) as (b1 & Hs1 & Hi1 & Hl1).
    destruct (alloc_assoc h1 m) as [h1a l1], (alloc_assoc h2 m) as [h2a l2]. simpl in Hi1, Hl1, Hs1.
    destruct (iso_alloc_map_with b1 h1a h2a l1 l2 Hi1 Hl1) as (Hi2 & Hs2 & Hm2).
    pose proof (owned_alloc_map b1 h1a l1 (length (hmaps h2a))) as Ho2.
    destruct (alloc_map_with h1a l1) as [h1b r1], (alloc_map_with h2a l2) as [h2b r2]. simpl in Hi2, Hm2, Ho2.
    match type of Hi2 with iso ?x _ _ => set (b2 := x) in * end.
    destruct (Hsome b2 h1b h2b (mkObject (Some r1)) (mkObject (Some r2)) Hi2) as (b3 & ? & ?).
    { unfold val_rel. simpl. by split_and!. }
    exists b3. split; [|done]. eapply owned_trans; [exact Hs1|]. by eapply owned_trans.
Qed.

Lemma own_alloc_assoc m : ∀ b h1 h2, iso b h1 h2 →
  ∃ b', owned b h1 b' (alloc_assoc h1 m).1 ∧ iso b' (alloc_assoc h1 m).1 (alloc_assoc h2 m).1 ∧
    map_rel b' (alloc_assoc h1 m).2 (alloc_assoc h2 m).2.
Proof.
  induction m as [|[k t] m IHl]; intros b h1 h2 Hi; simpl.
  - exists b. split; [apply owned_refl|]. split; [done|constructor].
  - destruct (own_alloc_tree t b h1 h2 Hi) as (b1 & Hs1 & Hi1 & Ho).
    destruct (alloc_tree h1 t) as [h1a o1], (alloc_tree h2 t) as [h2a o2]. simpl in Hi1, Ho, Hs1.
    destruct (IHl b1 h1a h2a Hi1) as (b2 & Hs2 & Hi2 & Hl2).
    destruct (alloc_assoc h1a m) as [h1b l1], (alloc_assoc h2a m) as [h2b l2]. simpl in *.
    exists b2. split_and!; [by eapply owned_trans|done|]. constructor; [|done]. split; [done|].
    by eapply optr_mono; [apply Hs2|].
Qed.

Lemma own_new_event b m w1 w2 : iso b (w_heap w1) (w_heap w2) →
  ∃ b', owned b (w_heap w1) b' (w_heap (new_event w1 m).1) ∧
    world_rel b' (new_event w1 m).2 (new_event w2 m).2 (new_event w1 m).1 (new_event w2 m).1.
Proof.
  intros Hi. unfold new_event. destruct (own_alloc_assoc m b _ _ Hi) as (b1 & Hs1 & Hi1 & Hm1).
  destruct (alloc_assoc (w_heap w1) m) as [h1a l1], (alloc_assoc (w_heap w2) m) as [h2a l2].
  simpl in Hi1, Hm1, Hs1.
  destruct (iso_alloc_map_with b1 h1a h2a l1 l2 Hi1 Hm1) as (Hi2 & Hs2 & Hm2).
  pose proof (owned_alloc_map b1 h1a l1 (length (hmaps h2a))) as Ho2.
  destruct (alloc_map_with h1a l1) as [h1b r1], (alloc_map_with h2a l2) as [h2b r2]. simpl in Hi2, Hm2, Ho2.
  eexists. split; [by eapply owned_trans|]. split; [exact Hi2|]. simpl.
  exists (mkEvent (Some r1)), (mkEvent (Some r2)).
  rewrite !lookup_app_r, !Nat.sub_diag by apply Nat.le_refl. done.
Qed.

(** ** Programs that never overwrite a plain value, whatever they are run on *)
Fixpoint calm {A} (c : prog A) (w : world) (pe : pevent) : Prop :=
  match c with
  | Ret _ | PPanic => True
  | PPut key v k =>
      match evt_of w pe with
      | None => True
      | Some (i, e) =>
          match Put (w_heap w) e key v with
          | Panic => True
          | Ok r => calm (k (put_old r) (put_err r))
                      (mkWorld (put_heap r) (<[i := put_event r]> (w_events w)) (w_env w) (w_log w)) pe
          end
      end
  | PTryPut key v k =>
      match evt_of w pe with
      | None => True
      | Some (i, e) =>
          match TryPut (w_heap w) e key v with
          | Panic => True
          | Ok r => calm (k (put_old r) (put_err r))
                      (mkWorld (put_heap r) (<[i := put_event r]> (w_events w)) (w_env w) (w_log w)) pe
          end
      end
  | PGet key k =>
      match evt_of w pe with
      | None => True
      | Some (i, e) =>
          match Get (w_heap w) e key with Panic => True | Ok (h, v) => calm (k v) (set_heap w h) pe end
      end
  | PDelete key k =>
      match evt_of w pe with
      | None => True
      | Some (i, e) =>
          match EvDelete (w_heap w) e key with Panic => True | Ok (h, v) => calm (k v) (set_heap w h) pe end
      end
  | PCancel k => calm k w (pe_Cancel pe)
  | PDrop k => calm k w (pe_Drop pe)
  | PNew v k => let '(h, p) := alloc_val (w_heap w) v in calm (k p) (set_heap w h) pe
  | PNewMap k => let '(h, r) := alloc_map (w_heap w) in calm (k r) (set_heap w h) pe
  | PLoad p k => match deref (w_heap w) p with Panic => True | Ok v => calm (k v) w pe end
  | PStore p v k =>
      match p with
      | Some q => (∀ x, hvals (w_heap w) !! q = Some x → ¬ plain x) ∧
                  calm k (set_heap w (set_val (w_heap w) q v)) pe
      | None => True
      end
  | PMapRead r k => calm (k (map_of (w_heap w) r)) w pe
  | PMapWrite r key v k =>
      match map_write (w_heap w) r key v with Panic => True | Ok h => calm k (set_heap w h) pe end
  | PMapDelete r key k => calm k (set_heap w (map_delete (w_heap w) r key)) pe
  | PInput k =>
      match w_env w with
      | [] => calm (k 0) w pe
      | x :: env => calm (k x) (mkWorld (w_heap w) (w_events w) env (w_log w)) pe
      end
  end.

(** A processor that overwrites no plain value, not even for a moment. *)
Definition gentle (c : prog (option goerr)) : Prop := ∀ w pe, calm c w pe.

Lemma append_finish_calm c0 p w pe :
  (∀ v, hvals (w_heap w) !! p = Some v → v_type v = ArrayType) →
  p < length (hvals (w_heap w)) → calm (append_finish c0 p) w pe.
Proof.
  intros Hty Hlt. unfold append_finish. cbn [calm alloc_val set_heap w_heap deref].
  cbn [hvals]. destruct ((hvals (w_heap w) ++ _) !! p) as [x|] eqn:Ep; [|done]. split; [|done].
  intros y [= <-] Hpl. rewrite lookup_app_l in Ep by done. apply Hty in Ep. by destruct Hpl.
Qed.

Lemma builtin_gentle C c : builtin C c → gentle c.
Proof.
  assert (∀ msg f c, gentle (case_process msg f c)) as Hcase.
  { intros msg f c0 w pe. unfold case_process. cbn [calm]. destruct (evt_of w pe) as [[i e]|]; [|done].
    destruct (Get _ e _) as [[h [q|]]|]; [|done|done]. cbn [calm].
    destruct (deref _ _) as [x|]; [|done]. destruct (negb _); [done|]. cbn [calm alloc_val].
    destruct (evt_of _ pe) as [[i' e']|]; [|done]. by destruct (Put _ e' _ _). }
  intros Hb. destruct Hb as [f c|f c|c|c Hin|c|]; [apply Hcase|apply Hcase| | |by intros w pe..].
  - intros w pe. rewrite append_process_eq. cbn [calm].
    destruct (evt_of w pe) as [[i e]|]; [|done].
    destruct (Get _ e _) as [[h [q|]]|]; [| |done].
    + cbn [calm deref set_heap w_heap]. destruct (hvals h !! q) as [x|] eqn:Eq; [|done].
      destruct (N.eqb (v_type x) StringType).
      { cbn [calm alloc_val]. apply append_finish_calm; simpl.
        - intros v. rewrite lookup_app_r, Nat.sub_diag by apply Nat.le_refl. by intros [= <-].
        - rewrite app_length. simpl. lia. }
      destruct (N.eqb_spec (v_type x) ArrayType) as [Hty|Hty]; cbn [negb]; [|done].
      apply append_finish_calm; simpl; [|by eapply lookup_lt_Some].
      intros v. rewrite Eq. by intros [= <-].
    + cbn [calm alloc_val]. destruct (evt_of _ pe) as [[i' e']|]; [|done].
      destruct (Put _ e' _ _) as [r|] eqn:Ep; [|done]. apply put_vals in Ep. simpl in Ep.
      assert (hvals (put_heap r) !! length (hvals h) = Some (mkArray [])) as Hr.
      { apply Ep. simpl. rewrite lookup_app_r, Nat.sub_diag by apply Nat.le_refl. done. }
      apply append_finish_calm; simpl; [|by eapply lookup_lt_Some].
      intros v. rewrite Hr. by intros [= <-].
  - intros w pe. unfold set_process. cbn [calm].
    destruct (deref _ _) as [x|]; [|done]. destruct (negb _).
    { cbn [calm]. destruct (evt_of w pe) as [[i e]|]; [|done]. by destruct (Put _ e _ _). }
    destruct (negb _).
    + cbn [calm]. destruct (evt_of w pe) as [[i e]|]; [|done].
      destruct (Get _ e _) as [[h [q|]]|]; [|done|done]. cbn [calm].
      destruct (evt_of _ pe) as [[i' e']|]; [|done]. by destruct (Put _ e' _ _).
    + cbn [calm]. destruct (evt_of w pe) as [[i e]|]; [|done]. by destruct (Put _ e _ _).
Qed.

(** ** One operation *)
(** What one operation of the first world's goroutine did: its result is still
    related to the second world's, it kept to its own cells and its own event, and
    counted nothing. *)
Definition step_own {A} (b : bij) (i1 i2 : nat) (w1 w2 : world)
    (x y : world * pevent * prog A) : Prop :=
  ∃ b', prog_rel b' x.2 y.2 ∧ world_rel b' i1 i2 x.1.1 y.1.1 ∧ pe_rel i1 i2 x.1.2 y.1.2 ∧
    owned b (w_heap w1) b' (w_heap x.1.1) ∧
    (∀ j, j ≠ i1 → w_events x.1.1 !! j = w_events w1 !! j) ∧
    w_log x.1.1 = w_log w1 ∧ w_log y.1.1 = w_log w2 ∧ calm y.2 y.1.1 y.1.2.

Lemma plain_rel b v1 v2 : val_rel b v1 v2 → plain v1 → plain v2.
Proof.
  intros (_&_&_&_&_&_&Ht&Ha&Ho) (P1 & P2 & P3). unfold plain. rewrite <-Ht, P2, P3 in *.
  destruct (v_arr v2), (v_obj v2); simpl in *; done.
Qed.

Lemma prog_step_own {A} b (c1 c2 : prog A) : prog_rel b c1 c2 → ∀ i1 i2 w1 w2 pe1 pe2,
  world_rel b i1 i2 w1 w2 → pe_rel i1 i2 pe1 pe2 → calm c2 w2 pe2 →
  out_rel (step_own b i1 i2 w1 w2) (prog_step c1 w1 pe1) (prog_step c2 w2 pe2).
Proof.
  assert (∀ i1 i2 w1 w2 pe1 pe2 b, world_rel b i1 i2 w1 w2 → pe_rel i1 i2 pe1 pe2 →
    ∃ e1 e2, evt_of w1 pe1 = Some (i1, e1) ∧ evt_of w2 pe2 = Some (i2, e2) ∧ ev_rel b e1 e2 ∧
      w_events w1 !! i1 = Some e1 ∧ w_events w2 !! i2 = Some e2) as Hevt.
  { intros i1 i2 w1 w2 pe1 pe2 bb (_ & e1 & e2 & H1 & H2 & He) (D1 & D2 & _). exists e1, e2.
    unfold evt_of. rewrite D1, D2, H1, H2. done. }
  assert (∀ b i1 i2 w1 w2 pe1 pe2 h1 h2 b' (d1 d2 : prog A), world_rel b i1 i2 w1 w2 → pe_rel i1 i2 pe1 pe2 →
    owned b (w_heap w1) b' h1 → iso b' h1 h2 → prog_rel b' d1 d2 → calm d2 (set_heap w2 h2) pe2 →
    step_own b i1 i2 w1 w2 (set_heap w1 h1, pe1, d1) (set_heap w2 h2, pe2, d2)) as Hheap.
  { intros b0 i1 i2 w1 w2 pe1 pe2 h1 h2 b' d1 d2 Hw Hpe Ho Hi Hd Hc. exists b'. simpl.
    split_and!; try done. by eapply world_rel_heap; [| apply Ho|]. }
  assert (∀ b i1 i2 w1 w2 pe1 pe2 (d1 d2 : prog A), world_rel b i1 i2 w1 w2 → pe_rel i1 i2 pe1 pe2 →
    prog_rel b d1 d2 → calm d2 w2 pe2 →
    step_own b i1 i2 w1 w2 (w1, pe1, d1) (w2, pe2, d2)) as Hsame.
  { intros b0 i1 i2 w1 w2 pe1 pe2 d1 d2 Hw Hpe Hd Hc. exists b0. simpl.
    split_and!; try done. apply owned_refl. }
  assert (∀ b key ow v1 v2 i1 i2 w1 w2 pe1 pe2 (k1 k2 : option ptr → option goerr → prog A),
    world_rel b i1 i2 w1 w2 → pe_rel i1 i2 pe1 pe2 → orel (bp b) v1 v2 →
    (∀ b' o1 o2 err, sub b b' → orel (bp b') o1 o2 → prog_rel b' (k1 o1 err) (k2 o2 err)) →
    ∀ e1 e2, ev_rel b e1 e2 → w_events w1 !! i1 = Some e1 → w_events w2 !! i2 = Some e2 →
    match put (w_heap w2) e2 key v2 ow with Panic => True | Ok r => 
       calm (k2 (put_old r) (put_err r))
           (mkWorld (put_heap r) (<[i2 := put_event r]> (w_events w2)) (w_env w2) (w_log w2)) pe2 end →
    out_rel (step_own b i1 i2 w1 w2)
      (match put (w_heap w1) e1 key v1 ow with Panic => Panic | Ok r =>
         Ok (mkWorld (put_heap r) (<[i1 := put_event r]> (w_events w1)) (w_env w1) (w_log w1), pe1,
             k1 (put_old r) (put_err r)) end)
      (match put (w_heap w2) e2 key v2 ow with Panic => Panic | Ok r =>
         Ok (mkWorld (put_heap r) (<[i2 := put_event r]> (w_events w2)) (w_env w2) (w_log w2), pe2,
             k2 (put_old r) (put_err r)) end)) as Hput.
  { intros b0 key ow v1 v2 i1 i2 w1 w2 pe1 pe2 k1 k2 Hw Hpe Hv Hk e1 e2 He H1 H2 Hc.
    pose proof (own_put b0 (w_heap w1) (w_heap w2) e1 e2 key v1 v2 ow (proj1 Hw) He Hv) as Hp.
    destruct (put (w_heap w1) _ _ _ _) as [r1|], (put (w_heap w2) _ _ _ _) as [r2|]; simpl in Hp; try done.
    destruct Hp as [(b' & Hs & Hi & He' & Ho) Herr]. simpl. exists b'. simpl. rewrite Herr.
    split_and!; try done.
    - apply Hk; [apply Hs|done].
    - split; [done|]. exists (put_event r1), (put_event r2). simpl.
      rewrite !list_lookup_insert by (by eapply lookup_lt_Some). done.
    - intros j Hj. by apply list_lookup_insert_ne. }
  destruct 1; intros i1 i2 w1 w2 pe1 pe2 Hw Hpe Hc; cbn [prog_step calm] in *.
  - apply Hsame; [done|done|constructor|done].
  - destruct (Hevt _ _ _ _ _ _ _ Hw Hpe) as (e1 & e2 & E1 & E2 & He & H1' & H2'). rewrite E1, E2 in *.
    by apply Hput.
  - destruct (Hevt _ _ _ _ _ _ _ Hw Hpe) as (e1 & e2 & E1 & E2 & He & H1' & H2'). rewrite E1, E2 in *.
    by apply Hput.
  - destruct (Hevt _ _ _ _ _ _ _ Hw Hpe) as (e1 & e2 & E1 & E2 & He & _). rewrite E1, E2 in *.
    pose proof (own_get_path b (w_heap w1) (w_heap w2) e1 e2 (keyToPath key) (proj1 Hw) He) as Hg.
    unfold Get in *. destruct (get_path _ e1 _) as [[h1 o1]|], (get_path _ e2 _) as [[h2 o2]|]; simpl in Hg; try done.
    destruct Hg as (b' & Hs & Hi & Ho). simpl in *. eapply Hheap; try done. apply H; [apply Hs|done].
  - destruct (Hevt _ _ _ _ _ _ _ Hw Hpe) as (e1 & e2 & E1 & E2 & He & _). rewrite E1, E2 in *.
    pose proof (own_delete_path b (w_heap w1) (w_heap w2) e1 e2 (keyToPath key) (proj1 Hw) He) as Hg.
    unfold EvDelete in *. destruct (delete_path _ e1 _) as [[h1 o1]|], (delete_path _ e2 _) as [[h2 o2]|]; simpl in Hg; try done.
    destruct Hg as (b' & Hs & Hi & Ho). simpl in *. eapply Hheap; try done. apply H; [apply Hs|done].
  - exists b. simpl. destruct Hpe as (?&?&?&?). split_and!; try done. apply owned_refl.
  - by apply Hsame.
  - destruct (iso_alloc_val b (w_heap w1) (w_heap w2) v1 v2 (proj1 Hw) H) as (Hi & Hs & Hp).
    pose proof (owned_alloc_val b (w_heap w1) v1 (length (hvals (w_heap w2)))) as Ho.
    destruct (alloc_val (w_heap w1) v1) as [h1 p1], (alloc_val (w_heap w2) v2) as [h2 p2]. simpl in Hi, Hp, Ho.
    eapply Hheap; try done. by apply H0.
  - destruct (iso_alloc_map b (w_heap w1) (w_heap w2) (proj1 Hw)) as (Hi & Hs & Hp).
    pose proof (owned_alloc_map b (w_heap w1) [] (length (hmaps (w_heap w2)))) as Ho.
    unfold alloc_map in *. simpl in *. eapply Hheap; try done. by apply H.
  - pose proof (iso_deref b (w_heap w1) (w_heap w2) p1 p2 (proj1 Hw) H) as Hd.
    destruct (deref (w_heap w1) p1), (deref (w_heap w2) p2); simpl in Hd; try done.
    apply Hsame; try done. apply H0; [apply sub_refl|done].
  - destruct p1 as [p1|], p2 as [p2|]; simpl in H; try done.
    destruct (proj1 (iso_bounds _ _ _ (proj1 Hw)) _ _ H) as [L1 L2].
    destruct (decide (p1 < _)), (decide (p2 < _)); try done. destruct Hc as [Hnp Hc].
    eapply Hheap; try done.
    + eapply owned_set_val; [done|]. intros x Hx Hpl.
      destruct (iso_val _ _ _ (proj1 Hw) _ _ H) as (x1 & x2 & Hx1 & Hx2 & Hrel). simplify_eq.
      eapply Hnp; [exact Hx2|]. by eapply plain_rel.
    + apply iso_set_val; [apply Hw|done|done].
  - apply Hsame; try done. apply H0; [apply sub_refl|]. apply iso_map_of; [apply Hw|done].
  - pose proof (iso_map_write b (w_heap w1) (w_heap w2) r1 r2 key v1 v2 (proj1 Hw) H H0) as Hm.
    destruct (map_write (w_heap w1) r1 key v1) eqn:Em, (map_write (w_heap w2) r2 key v2); simpl in Hm; try done.
    eapply Hheap; try done. by eapply owned_map_write.
  - eapply Hheap; try done; [by eapply owned_map_delete|]. apply iso_map_delete; [apply Hw|done].
  - done.
Qed.
