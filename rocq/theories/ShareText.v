(** * Writing shared events as JSON: proofs. *)
From Verif Require Export ShareTextSpec ShareFacts JsonEvent.
From Verif Require Import CmdTrace.
From Coq Require Import Lia.
Local Open Scope Z_scope.

(** ** The walk as a function *)
Definition kept (t : tree) : Outcome (option tree) := if tdepth t <=? maxNestingDepth then Ok (Some t) else Ok None.
Fixpoint gwalk (f : nat) (bs : list box) (x : item) : Outcome (option tree) :=
  match f with
  | O => Panic
  | S f =>
      match x with
      | IPlain (TNilArr | TArr _ | TObj _) => Panic
      | IPlain (TFloat b) => if finite64 b then Ok (Some (TFloat b)) else Ok None
      | IPlain t => Ok (Some t)
      | IArr n =>
          match bs !! n with
          | Some (BxArr None) => Ok (Some TNilArr)
          | Some (BxArr (Some l)) => jbind (jmapM (gwalk f bs) l) (λ ts, kept (TArr ts))
          | _ => Panic
          end
      | IObj n =>
          match bs !! n with
          | Some (BxObj m) => jbind (jmapM (λ kv : string * item, jbind (gwalk f bs kv.2) (λ t, jret (kv.1, t))) m) (λ ts, kept (TObj ts))
          | _ => Panic
          end
      end
  end.
Lemma jmapM_none {A B} (f : A → Outcome (option B)) l :
  jmapM f l = Ok None ↔ ∃ l1 x l2, l = l1 ++ x :: l2 ∧ Forall (λ y, ∃ b, f y = Ok (Some b)) l1 ∧ f x = Ok None.
Proof.
  split.
  - induction l as [|y l IH]; [done|]. rewrite jmapM_cons. destruct (f y) as [[b|]|] eqn:E; cbn [jbind]; [| |done].
    + destruct (jmapM f l) as [[bs|]|]; cbn [jbind]; [done| |done]. intros _. destruct (IH eq_refl) as (l1 & x & l2 & -> & H1 & H2).
      exists (y :: l1), x, l2. split_and!; [done| |done]. apply List.Forall_cons; eauto.
    + intros _. exists [], y, l. split_and!; [done|apply List.Forall_nil|done].
  - intros (l1 & x & l2 & -> & H1 & H2). induction H1 as [|y l1 [b Hy] _ IH]; cbn [app]; rewrite jmapM_cons.
    + by rewrite H2.
    + rewrite Hy. cbn [jbind]. by rewrite IH.
Qed.
Lemma jmember_ok' {A B} (f : A → Outcome (option B)) (l : list (string * A)) ys :
  jmapM (λ kv, jbind (f kv.2) (λ j, jret (kv.1, j))) l = Ok (Some ys) ↔
  Forall2 (λ (kv : string * A) (y : string * B), y.1 = kv.1 ∧ f kv.2 = Ok (Some y.2)) l ys.
Proof.
  rewrite jmapM_ok. split; intros H; (eapply Forall2_impl; [exact H|]); intros [k x] [k' y]; cbn.
  - destruct (f x) as [[z|]|]; cbn; try done. intros [= -> ->]. done.
  - intros [-> ->]. done.
Qed.
Lemma jmember_none {A B} (f : A → Outcome (option B)) (l : list (string * A)) :
  jmapM (λ kv, jbind (f kv.2) (λ j, jret (kv.1, j))) l = Ok None ↔
  ∃ l1 k x l2, l = l1 ++ (k, x) :: l2 ∧ Forall (λ y, ∃ b, f y.2 = Ok (Some b)) l1 ∧ f x = Ok None.
Proof.
  rewrite jmapM_none. split.
  - intros (l1 & [k x] & l2 & -> & H1 & H2). exists l1, k, x, l2. split_and!; [done| |].
    + eapply Forall_impl; [exact H1|]. intros [k' y] [b Hb]. cbn in *. destruct (f y) as [[z|]|]; cbn in Hb; try done. by exists z.
    + cbn in H2. by destruct (f x) as [[z|]|].
  - intros (l1 & k & x & l2 & -> & H1 & H2). exists l1, (k, x), l2. split_and!; [done| |cbn; by rewrite H2].
    eapply Forall_impl; [exact H1|]. intros [k' y] [b Hb]. cbn in *. rewrite Hb. by eexists.
Qed.

(** ** More fuel does not matter *)
Lemma jmapM_mono {A B} (f g : A → Outcome (option B)) l r : (∀ x r, x ∈ l → f x = Ok r → g x = Ok r) → jmapM f l = Ok r → jmapM g l = Ok r.
Proof.
  revert r. induction l as [|x l IH]; intros r Hfg H; [done|]. rewrite jmapM_cons in *.
  destruct (f x) as [o|] eqn:E; [|done]. rewrite (Hfg x o (elem_of_list_here _ _) E). destruct o as [b|]; [|done]. cbn [jbind] in *.
  destruct (jmapM f l) as [o|] eqn:El; [|done]. rewrite (IH o); [done| |done]. intros y r' Hy. apply Hfg. by right.
Qed.
Lemma jmember_mono {A B} (f g : A → Outcome (option B)) (l : list (string * A)) r : (∀ x r, x ∈ l.*2 → f x = Ok r → g x = Ok r) →
  jmapM (λ kv, jbind (f kv.2) (λ j, jret (kv.1, j))) l = Ok r → jmapM (λ kv, jbind (g kv.2) (λ j, jret (kv.1, j))) l = Ok r.
Proof.
  intros Hfg. apply jmapM_mono. intros [k x] r' Hx. cbn. destruct (f x) as [o|] eqn:E; [|done]. rewrite (Hfg x o); [done| |done].
  apply elem_of_list_fmap. by exists (k, x).
Qed.
Lemma gwalk_mono bs f : ∀ g x r, (f ≤ g)%nat → gwalk f bs x = Ok r → gwalk g bs x = Ok r.
Proof.
  induction f as [|f IH]; intros [|g] x r Hle H; try done; [lia|]. cbn [gwalk] in *. destruct x as [t|n|n]; [done| |].
  - destruct (bs !! n) as [[[l|]|]|]; try done. destruct (jmapM (gwalk f bs) l) as [o|] eqn:E; [|done].
    rewrite (jmapM_mono (gwalk f bs) (gwalk g bs) l o); [done| |done]. intros y r' _. apply IH. lia.
  - destruct (bs !! n) as [[|m]|]; try done. destruct (jmapM _ m) as [o|] eqn:E; [|done].
    rewrite (jmember_mono (gwalk f bs) (gwalk g bs) m o); [done| |done]. intros y r' _. apply IH. lia.
Qed.

(** ** The walk is what the specification says *)
Lemma gwalk_sound bs f : ∀ x r, gwalk f bs x = Ok r → match r with Some t => writes bs x t | None => refused bs x end.
Proof.
  induction f as [|f IH]; intros x r H; [done|]. cbn [gwalk] in H. destruct x as [t|n|n].
  - assert (∀ t, match t with TNilArr | TArr _ | TObj _ => False | TFloat b => finite64 b = true | _ => True end → writes bs (IPlain t) t) as Hw.
    { intros t' Ht. split; [constructor; by destruct t'|]. split; [|destruct t'; try done; cbn; lia]. intros Hn. destruct t'; try done; cbn in Hn. congruence. }
    destruct t; try done; simplify_eq; try (by apply Hw). destruct (finite64 bits) eqn:E; simplify_eq; [by apply Hw|]. by apply rf_number.
  - destruct (bs !! n) as [[[l|]|]|] eqn:Eb; try done.
    2:{ simplify_eq. split; [by constructor|]. split; [intros Hn; exact Hn|]. cbn. lia. }
    destruct (jmapM (gwalk f bs) l) as [[ts|]|] eqn:E; cbn [jbind] in H; [| |done].
    + apply jmapM_ok in E. assert (Forall2 (writes bs) l ts) as Hl. { eapply Forall2_impl; [exact E|]. intros y t Hy. by apply (IH y (Some t)). }
      assert (unfolds bs (IArr n) (TArr ts)) as Hu. { eapply un_arr; [exact Eb|]. eapply Forall2_impl; [exact Hl|]. by intros y t []. }
      assert (¬ has_nonfinite (TArr ts)) as Hn.
      { rewrite has_nonfinite_arr. intros (t & Ht & Hnf). apply elem_of_list_lookup in Ht as [i Hi]. destruct (Forall2_lookup_r _ _ _ _ _ Hl Hi) as (y & _ & _ & Hj). by destruct Hj. }
      unfold kept in H. unfold maxNestingDepth in H. destruct (Z.leb_spec (tdepth (TArr ts)) 10000); injection H as <-; [by split|by eapply rf_deep].
    + simplify_eq. apply jmapM_none in E as (l1 & x & l2 & -> & H1 & H2). eapply rf_arr; [exact Eb| |by apply (IH x None)].
      eapply Forall_impl; [exact H1|]. intros y [t Ht]. exists t. by apply (IH y (Some t)).
  - destruct (bs !! n) as [[|m]|] eqn:Eb; try done.
    destruct (jmapM _ m) as [[ts|]|] eqn:E; cbn [jbind] in H; [| |done].
    + apply jmember_ok' in E. assert (Forall2 (λ a b, a.1 = b.1 ∧ writes bs a.2 b.2) m ts) as Hl.
      { eapply Forall2_impl; [exact E|]. intros [k y] [k' t] [Hk Hy]. cbn in *. split; [done|]. by apply (IH y (Some t)). }
      assert (unfolds bs (IObj n) (TObj ts)) as Hu. { eapply un_obj; [exact Eb|]. eapply Forall2_impl; [exact Hl|]. by intros y t (? & ? & _). }
      assert (¬ has_nonfinite (TObj ts)) as Hn.
      { rewrite has_nonfinite_obj. intros (t & Ht & Hnf). apply elem_of_list_lookup in Ht as [i Hi]. destruct (Forall2_lookup_r _ _ _ _ _ Hl Hi) as (y & _ & _ & _ & Hj). by destruct Hj. }
      unfold kept in H. unfold maxNestingDepth in H. destruct (Z.leb_spec (tdepth (TObj ts)) 10000); injection H as <-; [by split|by eapply rf_deep].
    + simplify_eq. apply jmember_none in E as (l1 & k & x & l2 & -> & H1 & H2). eapply rf_obj; [exact Eb| |by apply (IH x None)].
      eapply Forall_impl; [exact H1|]. intros y [t Ht]. exists t. by apply (IH y.2 (Some t)).
Qed.
Lemma tdepth_arr_le l t : t ∈ l → tdepth t ≤ tdepth (TArr l).
Proof. intros H. pose proof (fold_depth_le tdepth l t H). simpl. lia. Qed.
Lemma tdepth_obj_le (m : gomap tree) kv : kv ∈ m → tdepth kv.2 ≤ tdepth (TObj m).
Proof. intros H. pose proof (fold_depth_le (λ kv : string * tree, let '(_, j) := kv in tdepth j) m kv H) as G. destruct kv. simpl in *. lia. Qed.
Definition ends (bs : list box) (x : item) (r : option tree) : Prop := ∃ N, ∀ f, (N ≤ f)%nat → gwalk f bs x = Ok r.
Lemma ends_all {A B} (g : nat → A → Outcome (option B)) l : Forall (λ y, ∃ r N, ∀ f, (N ≤ f)%nat → g f y = Ok r) l →
  ∃ N r, ∀ f, (N ≤ f)%nat → jmapM (g f) l = Ok r.
Proof.
  induction 1 as [|y l (r & N & Hy) _ (N' & r' & IH)]; [by exists O, (Some [])|].
  exists (N `max` N')%nat. destruct r as [b|].
  - exists (match r' with Some bs => Some (b :: bs) | None => None end). intros f Hf. rewrite jmapM_cons, Hy by lia. cbn [jbind]. rewrite IH by lia. by destruct r'.
  - exists None. intros f Hf. by rewrite jmapM_cons, Hy by lia.
Qed.
(** What ends, ends the way it should. *)
Lemma unfolds_ends bs x t : unfolds bs x t → ∃ r, ends bs x r.
Proof.
  revert x t. refine (unfolds_ind' bs (λ x t, ∃ r, ends bs x r) _ _ _ _).
  - intros t Ht. destruct t; try done; try (by eexists _, 1%nat; intros [|f] Hf; [lia|]; reflexivity).
    destruct (finite64 bits) eqn:E; eexists _, 1%nat; (intros [|f] Hf; [lia|]); cbn [gwalk]; by rewrite E.
  - intros n Hn. eexists _, 1%nat. intros [|f] Hf; [lia|]. cbn [gwalk]. by rewrite Hn.
  - intros n l ts Hn _ IH. destruct (ends_all (λ f, gwalk f bs) l) as (N & r & H).
    { apply Forall_forall. intros y Hy. apply elem_of_list_lookup in Hy as [i Hi]. destruct (Forall2_lookup_l _ _ _ _ _ IH Hi) as (t & _ & r & N & Hy). by exists r, N. }
    exists (match r with Some ts => if tdepth (TArr ts) <=? maxNestingDepth then Some (TArr ts) else None | None => None end), (S N).
    intros [|f] Hf; [lia|]. cbn [gwalk]. rewrite Hn, H by lia. destruct r; [|done]. cbn [jbind]. unfold kept. by destruct (_ <=? _).
  - intros n m ts Hn _ IH. destruct (ends_all (λ f (kv : string * item), jbind (gwalk f bs kv.2) (λ t, jret (kv.1, t))) m) as (N & r & H).
    { apply Forall_forall. intros y Hy. apply elem_of_list_lookup in Hy as [i Hi]. destruct (Forall2_lookup_l _ _ _ _ _ IH Hi) as (t & _ & _ & r & N & Hy).
      exists (match r with Some t => Some (y.1, t) | None => None end), N. intros f Hf. rewrite Hy by lia. by destruct r. }
    exists (match r with Some ts => if tdepth (TObj ts) <=? maxNestingDepth then Some (TObj ts) else None | None => None end), (S N).
    intros [|f] Hf; [lia|]. cbn [gwalk]. rewrite Hn, H by lia. destruct r; [|done]. cbn [jbind]. unfold kept. by destruct (_ <=? _).
Qed.
Lemma gwalk_writes bs x t : writes bs x t → ends bs x (Some t).
Proof.
  intros [Hu Hj]. destruct (unfolds_ends _ _ _ Hu) as (r & N & H). exists N. intros f Hf. rewrite H by done. f_equal.
  pose proof (gwalk_sound _ _ _ _ (H f Hf)) as Hs. destruct r as [t'|].
  - destruct Hs as [Hu' _]. f_equal. by eapply unfolds_fun.
  - exfalso. clear H Hf N f. revert t Hu Hj. induction Hs as [t0 Hn Hp|x t0 Hu0 Hn Hd|n l1 x l2 Hb Hw _ IH|n m1 k x m2 Hb Hw _ IH]; intros t Hu [Hj1 Hj2].
    + inversion Hu; subst. done.
    + assert (t0 = t) as -> by (by eapply unfolds_fun). lia.
    + inversion Hu as [|? Hb'|? l ts Hb' Hl|]; subst; [congruence|]. assert (l = l1 ++ x :: l2) as -> by congruence.
      apply Forall2_app_inv_l in Hl as (ts1 & ts2 & _ & Hl & ->). inversion Hl as [|? tx ? ts3 Hx Hl2]; subst.
      assert (tx ∈ ts1 ++ tx :: ts3) as Hin by (apply elem_of_app; right; left).
      apply (IH tx Hx). split; [intros Hnf; apply Hj1, has_nonfinite_arr; eauto|]. pose proof (tdepth_arr_le _ _ Hin). lia.
    + inversion Hu as [| | |? m m' Hb' Hl]; subst. assert (m = m1 ++ (k, x) :: m2) as -> by congruence.
      apply Forall2_app_inv_l in Hl as (ts1 & ts2 & _ & Hl & ->). inversion Hl as [|? tx ? ts3 [_ Hx] Hl2]; subst. cbn in Hx.
      assert (tx ∈ ts1 ++ tx :: ts3) as Hin by (apply elem_of_app; right; left).
      apply (IH tx.2 Hx). split; [intros Hnf; apply Hj1, has_nonfinite_obj; eauto|]. pose proof (tdepth_obj_le _ _ Hin). lia.
Qed.
Lemma gwalk_refused bs x : refused bs x → ends bs x None.
Proof.
  induction 1 as [t Hn Hp|x t Hu Hn Hd|n l1 x l2 Hb Hw _ (N & IH)|n m1 k x m2 Hb Hw _ (N & IH)].
  - exists 1%nat. intros [|f] Hf; [lia|]. destruct t; try done. cbn [gwalk]. cbn in Hn. by rewrite Hn.
  - destruct (unfolds_ends _ _ _ Hu) as (r & N & H). exists N. intros f Hf. rewrite H by done. f_equal.
    pose proof (gwalk_sound _ _ _ _ (H f Hf)) as Hs. destruct r as [t'|]; [|done]. destruct Hs as [Hu' [_ Hd']].
    assert (t' = t) as -> by (by eapply unfolds_fun). lia.
  - assert (∃ N', ∀ f, (N' ≤ f)%nat → Forall (λ y, ∃ t, gwalk f bs y = Ok (Some t)) l1) as (N' & H1).
    { clear Hb. induction Hw as [|y l1 [t Hy] _ (N' & IHl)]; [exists O; intros; apply List.Forall_nil|].
      destruct (gwalk_writes _ _ _ Hy) as (N1 & H1). exists (N1 `max` N')%nat. intros f Hf. apply List.Forall_cons; [exists t; apply H1; lia|apply IHl; lia]. }
    exists (S (N `max` N')). intros [|f] Hf; [lia|]. cbn [gwalk]. rewrite Hb.
    assert (jmapM (gwalk f bs) (l1 ++ x :: l2) = Ok None) as ->; [|done].
    apply jmapM_none. exists l1, x, l2. split_and!; [done|apply H1; lia|apply IH; lia].
  - assert (∃ N', ∀ f, (N' ≤ f)%nat → Forall (λ y, ∃ t, gwalk f bs y.2 = Ok (Some t)) m1) as (N' & H1).
    { clear Hb. induction Hw as [|y l1 [t Hy] _ (N' & IHl)]; [exists O; intros; apply List.Forall_nil|].
      destruct (gwalk_writes _ _ _ Hy) as (N1 & H1). exists (N1 `max` N')%nat. intros f Hf. apply List.Forall_cons; [exists t; apply H1; lia|apply IHl; lia]. }
    exists (S (N `max` N')). intros [|f] Hf; [lia|]. cbn [gwalk]. rewrite Hb.
    assert (jmapM (λ kv : string * item, jbind (gwalk f bs kv.2) (λ t, jret (kv.1, t))) (m1 ++ (k, x) :: m2) = Ok None) as ->; [|done].
    apply jmember_none. exists m1, k, x, m2. split_and!; [done|apply H1; lia|apply IH; lia].
Qed.
Lemma gwalk_endless bs x : endless bs x → ∀ f, gwalk f bs x = Panic.
Proof.
  intros [H1 H2] f. destruct (gwalk f bs x) as [r|] eqn:E; [|done]. apply gwalk_sound in E. destruct r as [t|]; [by destruct (H1 t)|done].
Qed.

(** ** Going deeper than there are containers is going round in circles *)
Definition box_item (bs : list box) (n : nat) : item := match bs !! n with Some (BxArr _) => IArr n | _ => IObj n end.
Lemma jmapM_mono_in {A B} (f g : A → Outcome (option B)) l r : (∀ x r, f x = Ok r → g x = Ok r) → jmapM f l = Ok r → jmapM g l = Ok r.
Proof. intros H. apply jmapM_mono. intros x r' _. apply H. Qed.
Lemma gwalk_enough bs f : ∀ x r vis g, gwalk f bs x = Ok r → NoDup vis →
  (∀ n, n ∈ vis → (n < length bs)%nat ∧ gwalk f bs (box_item bs n) = Panic) → (length bs < length vis + g)%nat → gwalk g bs x = Ok r.
Proof.
  induction f as [|f IH]; intros x r vis g H Hnd Hvis Hg; [done|].
  assert (length vis ≤ length bs)%nat as Hlen.
  { assert (vis ⊆+ seq 0 (length bs)) as Hsub. { apply NoDup_submseteq; [done|]. intros n Hn. apply elem_of_seq. destruct (Hvis _ Hn). lia. }
    apply submseteq_length in Hsub. by rewrite seq_length in Hsub. }
  destruct (gwalk f bs x) as [r'|] eqn:Ef.
  { assert (r' = r) as -> by (apply (gwalk_mono bs f (S f)) in Ef; [congruence|lia]). eapply (IH x r vis g); [done|done| |done].
    intros n Hn. destruct (Hvis _ Hn) as [H1 H2]. split; [done|]. destruct (gwalk f bs (box_item bs n)) as [r'|] eqn:E; [|done].
    apply (gwalk_mono bs f (S f)) in E; [congruence|lia]. }
  assert (∀ n, x = box_item bs n → (n < length bs)%nat → n ∉ vis ∧ length (n :: vis) ≤ length bs ∧ NoDup (n :: vis) ∧
    ∀ k, k ∈ n :: vis → (k < length bs)%nat ∧ gwalk f bs (box_item bs k) = Panic)%nat as Hbox.
  { intros n -> Hn. assert (n ∉ vis) as Hni by (intros Hin; destruct (Hvis _ Hin); congruence).
    assert (NoDup (n :: vis)) as Hnd' by (by constructor).
    assert (∀ k, k ∈ n :: vis → (k < length bs)%nat ∧ gwalk f bs (box_item bs k) = Panic) as Hall.
    { intros k [->|Hk]%elem_of_cons; [done|]. destruct (Hvis _ Hk) as [H1 H2]. split; [done|].
      destruct (gwalk f bs (box_item bs k)) as [r'|] eqn:E; [|done]. apply (gwalk_mono bs f (S f)) in E; [congruence|lia]. }
    split_and!; [done| |done|done].
    assert (n :: vis ⊆+ seq 0 (length bs)) as Hsub. { apply NoDup_submseteq; [done|]. intros k Hk. apply elem_of_seq. destruct (Hall _ Hk). lia. }
    apply submseteq_length in Hsub. by rewrite seq_length in Hsub. }
  destruct g as [|g]; [lia|]. cbn [gwalk] in H |- *. destruct x as [t|n|n]; [done| |].
  - destruct (bs !! n) as [[[l|]|]|] eqn:Eb; try done.
    destruct (Hbox n) as (_ & Hl' & Hnd' & Hall); [unfold box_item; by rewrite Eb|by eapply lookup_lt_Some|].
    destruct (jmapM (gwalk f bs) l) as [o|] eqn:E; [|done]. rewrite (jmapM_mono_in (gwalk f bs) (gwalk g bs) l o); [done| |done].
    intros y r' Hy. eapply (IH y r' (n :: vis) g); [done|done|done|]. cbn [List.length]. lia.
  - destruct (bs !! n) as [[|m]|] eqn:Eb; try done.
    destruct (Hbox n) as (_ & Hl' & Hnd' & Hall); [unfold box_item; by rewrite Eb|by eapply lookup_lt_Some|].
    destruct (jmapM _ m) as [o|] eqn:E; [|done]. rewrite (jmember_mono (gwalk f bs) (gwalk g bs) m o); [done| |done].
    intros y r' _ Hy. eapply (IH y r' (n :: vis) g); [done|done|done|]. cbn [List.length]. lia.
Qed.
Lemma three_ways bs x : (∃ t, writes bs x t) ∨ refused bs x ∨ endless bs x.
Proof.
  destruct (gwalk (S (length bs)) bs x) as [[t|]|] eqn:E.
  - left. exists t. by apply (gwalk_sound _ _ _ _ E).
  - right. left. by apply (gwalk_sound _ _ _ _ E).
  - right. right.
    assert (∀ r, ¬ ends bs x r) as Hne.
    { intros r (N & H). pose proof (gwalk_enough bs N x r [] (S (length bs)) (H N (Nat.le_refl _)) (NoDup_nil_2)) as G.
      rewrite E in G. discriminate G; [|cbn; lia]. intros n Hn. by apply elem_of_nil in Hn. }
    split; [intros t Hw; by apply (Hne (Some t)), gwalk_writes|intros Hr; by apply (Hne None), gwalk_refused].
Qed.

(** ** json.Marshal is the walk *)
Definition encoded (fmt : Z → bool * Z * Z) (r : Outcome (option tree)) (r' : Outcome (option json)) : Prop :=
  match r with
  | Panic => r' = Panic
  | Ok None => r' = Ok None
  | Ok (Some t) => ∃ j, r' = Ok (Some j) ∧ json_of_tree fmt t = Some j
  end.
Lemma encoded_arr fmt (g : item → Outcome (option tree)) (g' : option ptr → Outcome (option json)) xs ops :
  Forall2 (λ op x, encoded fmt (g x) (g' op)) ops xs →
  encoded fmt (jbind (jmapM g xs) (λ ts, kept (TArr ts))) (jbind (jmapM g' ops) (λ js, scanned (JArr js))).
Proof.
  intros H.
  assert (match jmapM g xs with
    | Panic => jmapM g' ops = Panic | Ok None => jmapM g' ops = Ok None
    | Ok (Some ts) => ∃ js, jmapM g' ops = Ok (Some js) ∧ osequence (map (json_of_tree fmt) ts) = Some js end) as Hm.
  { induction H as [|op x ops xs Hx _ IH]; [by exists []|]. rewrite !jmapM_cons. unfold encoded in Hx.
    destruct (g x) as [[t|]|]; cbn [jbind]; [|by rewrite Hx|by rewrite Hx]. destruct Hx as (j & -> & Hj). cbn [jbind].
    destruct (jmapM g xs) as [[ts|]|]; cbn [jbind]; [|by rewrite IH|by rewrite IH]. destruct IH as (js & -> & Hjs). cbn [jbind].
    exists (j :: js). split; [done|]. cbn [map osequence]. by rewrite Hj, Hjs. }
  destruct (jmapM g xs) as [[ts|]|]; cbn [jbind encoded]; [|by rewrite Hm|by rewrite Hm]. destruct Hm as (js & -> & Hjs). cbn [jbind].
  assert (json_of_tree fmt (TArr ts) = Some (JArr js)) as Ej by (cbn [json_of_tree]; by rewrite Hjs).
  unfold kept, scanned. rewrite <- (json_of_tree_depth fmt _ _ Ej). destruct (_ <=? _); [|done]. by exists (JArr js).
Qed.
Lemma encoded_obj fmt (g : item → Outcome (option tree)) (g' : option ptr → Outcome (option json)) m gm :
  Forall2 (λ (a : string * option ptr) (b : string * item), a.1 = b.1 ∧ encoded fmt (g b.2) (g' a.2)) gm m →
  encoded fmt (jbind (jmapM (λ kv : string * item, jbind (g kv.2) (λ t, jret (kv.1, t))) m) (λ ts, kept (TObj ts)))
    (jbind (jmapM (λ kv : string * option ptr, jbind (g' kv.2) (λ j, jret (kv.1, j))) gm) (λ js, scanned (JObj js))).
Proof.
  intros H.
  assert (match jmapM (λ kv : string * item, jbind (g kv.2) (λ t, jret (kv.1, t))) m with
    | Panic => jmapM (λ kv : string * option ptr, jbind (g' kv.2) (λ j, jret (kv.1, j))) gm = Panic
    | Ok None => jmapM (λ kv : string * option ptr, jbind (g' kv.2) (λ j, jret (kv.1, j))) gm = Ok None
    | Ok (Some ts) => ∃ js, jmapM (λ kv : string * option ptr, jbind (g' kv.2) (λ j, jret (kv.1, j))) gm = Ok (Some js) ∧
        osequence (map (λ kv : string * tree, let '(k, t) := kv in match json_of_tree fmt t with Some j => Some (k, j) | None => None end) ts) = Some js end) as Hm.
  { induction H as [|[k op] [k2 x] gm m [E Hx] _ IH]; [by exists []|]. rewrite !jmapM_cons. cbn [fst snd] in *. subst k2. unfold encoded in Hx.
    destruct (g x) as [[t|]|]; cbn [jbind]; [|by rewrite Hx|by rewrite Hx]. destruct Hx as (j & -> & Hj). unfold jret at 1 3. cbn [jbind].
    destruct (jmapM (λ kv : string * item, _) m) as [[ts|]|]; cbn [jbind]; [|by rewrite IH|by rewrite IH]. destruct IH as (js & -> & Hjs). cbn [jbind].
    exists ((k, j) :: js). split; [done|]. cbn [map osequence]. by rewrite Hj, Hjs. }
  destruct (jmapM (λ kv : string * item, _) m) as [[ts|]|]; cbn [jbind encoded]; [|by rewrite Hm|by rewrite Hm]. destruct Hm as (js & -> & Hjs). cbn [jbind].
  assert (json_of_tree fmt (TObj ts) = Some (JObj js)) as Ej by (cbn [json_of_tree]; by rewrite Hjs).
  unfold kept, scanned. rewrite <- (json_of_tree_depth fmt _ _ Ej). destruct (_ <=? _); [|done]. by exists (JObj js).
Qed.
Lemma valueJSON_walk fmt h names bs f : pic h names bs → ∀ op x, item_at h names op x → encoded fmt (gwalk f bs x) (valueJSON fmt f h op).
Proof.
  intros Hp. assert (∀ n l, names !! n = Some l → ∃ b, bs !! n = Some b ∧ box_at h names l b) as Hbox by (intros; by eapply pic_lookup).
  induction f as [|f IH]; intros op x Hx; [done|]. destruct Hx as [|p v t Hv Ht|p v Hv Ht Ho|p v n Hv Ht Ho Hl|p v r n Hv Ht Ho Hl].
  - by exists JNull.
  - cbn [valueJSON deref]. rewrite Hv. cbn [obind]. pose proof (scalar_tree_scalar _ _ Ht) as Hs.
    unfold scalar_tree in Ht. destruct (v_obj v); [done|].
    destruct (N.eqb_spec (v_type v) NullType) as [->|]; [simplify_eq; by exists JNull|].
    destruct (N.eqb_spec (v_type v) BoolType) as [->|]; [simplify_eq; by eexists|].
    destruct (N.eqb_spec (v_type v) FloatType) as [->|].
    { simplify_eq. cbn [gwalk]. change (N.eqb FloatType ArrayType) with false. cbn [json_of_tree]. destruct (finite64 (v_float v)) eqn:E; [|done].
      eexists. split; [reflexivity|]. cbn [json_of_tree]. by rewrite E. }
    destruct (N.eqb_spec (v_type v) IntegerType) as [->|]; [simplify_eq; by eexists|].
    destruct (N.eqb_spec (v_type v) StringType) as [->|]; [simplify_eq; by eexists|].
    destruct (N.eqb_spec (v_type v) TimestampType) as [->|]; [simplify_eq; by eexists|].
    destruct (N.eqb_spec (v_type v) UnsignedIntegerType) as [->|]; [simplify_eq; by eexists|]. done.
  - cbn [valueJSON deref]. rewrite Hv. cbn [obind]. rewrite Ht, Ho. by exists JNull.
  - cbn [valueJSON deref gwalk]. rewrite Hv. cbn [obind]. rewrite Ht, N.eqb_refl. destruct (Hbox _ _ Hl) as (b & Hb & Hat). rewrite Hb.
    inversion Hat as [? v' Hv' Ht' Ho' Ha'|? v' ops xs Hv' Ht' Ho' Ha' Hxs|]; subst; assert (v' = v) as -> by congruence; rewrite Ha'; [by exists JNull|].
    apply encoded_arr. eapply Forall2_impl; [exact Hxs|]. apply IH.
  - cbn [valueJSON deref gwalk]. rewrite Hv. cbn [obind]. rewrite Ht, Ho.
    change (N.eqb ObjectType ArrayType) with false. change (N.eqb ObjectType BoolType) with false. change (N.eqb ObjectType FloatType) with false.
    change (N.eqb ObjectType IntegerType) with false. change (N.eqb ObjectType ObjectType) with true. cbn [map_of].
    destruct (Hbox _ _ Hl) as (b & Hb & Hat). rewrite Hb. inversion Hat as [| |? gm m Hg Hs Hm]; subst. rewrite Hg.
    apply encoded_obj. eapply Forall2_impl; [exact Hm|]. intros a c [? ?]. split; [done|by apply IH].
Qed.
Definition root_walk (f : nat) (G : graph) : Outcome (option tree) :=
  match g_root G with None => Ok (Some (TObj [])) | Some n => gwalk (S f) (g_boxes G) (IObj n) end.
Lemma MarshalEvent_walk fmt f h e G names : state h e G names → fields e ≠ None → encoded fmt (root_walk f G) (MarshalEvent fmt f h e).
Proof.
  intros [Hp Hr] Hf. unfold MarshalEvent, root_walk, root_ok in *. destruct (fields e) as [r|]; [|done]. destruct (g_root G) as [n|].
  - destruct Hr as (r' & [= <-] & Hn). destruct (pic_lookup _ _ _ _ _ Hp Hn) as (b & Hb & Hat). inversion Hat as [| |? gm m Hg Hs Hm]; subst.
    cbn [gwalk map_of]. rewrite Hb, Hg.
    assert (∀ x : Outcome (option (list (string * json))), jbind (jbind x (λ js, jret (JObj js))) scanned = jbind x (λ js, scanned (JObj js))) as -> by (by intros [[]|]).
    apply encoded_obj. eapply Forall2_impl; [exact Hm|]. intros a c [? ?]. split; [done|]. by eapply valueJSON_walk.
  - destruct Hr as [?|(r' & [= <-] & Hg & _)]; [done|]. cbn [map_of]. rewrite Hg. by exists (JObj []).
Qed.
