(** * Refinement: the heap event behaves like a nested map.

    [rep h p t fp] says that following pointer [p] in heap [h] one sees the tree
    [t]; [fp] lists the mutable places (maps and array cells) the tree is made
    of.  [NoDup fp] says that no map or array is reachable twice. *)
From Verif Require Export EventHeap Tree.

Inductive loc : Set := LMap (r : mref) | LArr (p : ptr).

Global Instance loc_eq_dec : EqDecision loc.
Proof. solve_decision. Defined.

(** The tree of a value cell that is neither an array nor an object. *)
Definition scalar_tree (v : Value) : option tree :=
  match v_obj v with
  | Some _ => None
  | None =>
      if N.eqb (v_type v) NullType then Some TNull
      else if N.eqb (v_type v) BoolType then Some (TBool (v_bool v))
      else if N.eqb (v_type v) FloatType then Some (TFloat (v_float v))
      else if N.eqb (v_type v) IntegerType then Some (TInt (v_int v))
      else if N.eqb (v_type v) StringType then Some (TStr (v_str v))
      else if N.eqb (v_type v) TimestampType then Some (TTime (v_ts v))
      else if N.eqb (v_type v) UnsignedIntegerType then Some (TUint (v_uint v))
      else None
  end.

Inductive rep (h : heap) : option ptr → tree → list loc → Prop :=
| rep_nil : rep h None TNil []
| rep_scalar p v t :
    hvals h !! p = Some v → scalar_tree v = Some t → rep h (Some p) t []
| rep_nilarr p v :
    hvals h !! p = Some v → v_type v = ArrayType → v_obj v = None →
    v_arr v = None → rep h (Some p) TNilArr [LArr p]
| rep_arr p v ops ts fps :
    hvals h !! p = Some v → v_type v = ArrayType → v_obj v = None →
    v_arr v = Some ops → rep_list h ops ts fps →
    rep h (Some p) (TArr ts) (LArr p :: fps)
| rep_nilobj p v :
    hvals h !! p = Some v → v_type v = ObjectType → v_obj v = None →
    rep h (Some p) TNilObj []
| rep_obj p v r gm m fps :
    hvals h !! p = Some v → v_type v = ObjectType → v_obj v = Some r →
    hmaps h !! r = Some gm → msorted gm → rep_assoc h gm m fps →
    rep h (Some p) (TObj m) (LMap r :: fps)
with rep_list (h : heap) : list (option ptr) → list tree → list loc → Prop :=
| rep_list_nil : rep_list h [] [] []
| rep_list_cons op ops t ts fp fps :
    rep h op t fp → rep_list h ops ts fps →
    rep_list h (op :: ops) (t :: ts) (fp ++ fps)
with rep_assoc (h : heap) : gomap (option ptr) → gomap tree → list loc → Prop :=
| rep_assoc_nil : rep_assoc h [] [] []
| rep_assoc_cons k op gm t m fp fps :
    rep h op t fp → rep_assoc h gm m fps →
    rep_assoc h ((k, op) :: gm) ((k, t) :: m) (fp ++ fps).

Scheme rep_mind := Minimality for rep Sort Prop
  with rep_list_mind := Minimality for rep_list Sort Prop
  with rep_assoc_mind := Minimality for rep_assoc Sort Prop.
Combined Scheme rep_mutind from rep_mind, rep_list_mind, rep_assoc_mind.

(** An event and the map of trees it holds. *)
Definition ev_rep (h : heap) (e : event) (m : gomap tree) (fp : list loc) : Prop :=
  match fields e with
  | None => m = [] ∧ fp = []
  | Some r => ∃ gm fps, hmaps h !! r = Some gm ∧ msorted gm ∧ rep_assoc h gm m fps ∧
                fp = LMap r :: fps ∧ NoDup fp
  end.

(** [h'] may differ from [h] only by new cells and in the places [W]; value
    cells other than array cells never change. *)
Definition stable (h h' : heap) (W : loc → Prop) : Prop :=
  (∀ p v, hvals h !! p = Some v →
     hvals h' !! p = Some v ∨ (W (LArr p) ∧ v_type v = ArrayType)) ∧
  (∀ r gm, hmaps h !! r = Some gm → hmaps h' !! r = Some gm ∨ W (LMap r)) ∧
  length (hvals h) ≤ length (hvals h') ∧ length (hmaps h) ≤ length (hmaps h').

Definition fresh (h : heap) (l : loc) : Prop :=
  match l with
  | LMap r => length (hmaps h) ≤ r
  | LArr p => length (hvals h) ≤ p
  end.
Definition allocated (h : heap) (l : loc) : Prop :=
  match l with
  | LMap r => r < length (hmaps h)
  | LArr p => p < length (hvals h)
  end.

Lemma stable_refl h W : stable h h W.
Proof. repeat split; auto. Qed.

Lemma stable_weaken h h' (W W' : loc → Prop) :
  stable h h' W → (∀ l, W l → W' l) → stable h h' W'.
Proof. intros (H1 & H2 & H3 & H4) HW. repeat split; naive_solver. Qed.

Lemma stable_trans h1 h2 h3 (W : loc → Prop) :
  stable h1 h2 W → stable h2 h3 W → stable h1 h3 W.
Proof.
  intros (H1 & H2 & H3 & H4) (G1 & G2 & G3 & G4). repeat split; [| |lia|lia].
  - intros p v Hp. destruct (H1 _ _ Hp) as [Hp2|?]; [|by right].
    by apply G1.
  - intros r gm Hr. destruct (H2 _ _ Hr) as [Hr2|?]; [|by right]. by apply G2.
Qed.

(** Composition in which the second step may also write new places. *)
Lemma stable_trans_fresh h1 h2 h3 (W W2 : loc → Prop) :
  stable h1 h2 W → stable h2 h3 W2 → (∀ l, W2 l → W l ∨ fresh h1 l) → stable h1 h3 W.
Proof.
  intros (H1 & H2 & H3 & H4) (G1 & G2 & G3 & G4) HW. repeat split; [| |lia|lia].
  - intros p v Hp. destruct (H1 _ _ Hp) as [Hp2|?]; [|by right].
    destruct (G1 _ _ Hp2) as [?|[HW2 ?]]; [by left|].
    destruct (HW _ HW2) as [?|Hf]; [by right|].
    simpl in Hf. apply lookup_lt_Some in Hp. lia.
  - intros r gm Hr. destruct (H2 _ _ Hr) as [Hr2|?]; [|by right].
    destruct (G2 _ _ Hr2) as [?|HW2]; [by left|].
    destruct (HW _ HW2) as [?|Hf]; [by right|].
    simpl in Hf. apply lookup_lt_Some in Hr. lia.
Qed.

Lemma stable_alloc_val h v W : stable h (alloc_val h v).1 W.
Proof.
  repeat split; simpl; rewrite ?app_length; try lia.
  - intros p v' Hp. left. by apply lookup_app_l_Some.
  - auto.
Qed.

Lemma stable_alloc_map h W : stable h (alloc_map h).1 W.
Proof.
  repeat split; simpl; rewrite ?app_length; try lia.
  - auto.
  - intros r gm Hr. left. by apply lookup_app_l_Some.
Qed.

Lemma stable_map_write h r k op h' (W : loc → Prop) :
  map_write h (Some r) k op = Ok h' → W (LMap r) → stable h h' W.
Proof.
  unfold map_write. intros H HW. case_match eqn:E; simplify_eq.
  repeat split; simpl; rewrite ?insert_length; try lia; auto.
  intros r' gm Hr. destruct (decide (r = r')) as [->|Hne]; [by right|].
  left. by rewrite list_lookup_insert_ne.
Qed.

Lemma stable_map_delete h r k (W : loc → Prop) :
  W (LMap r) → stable h (map_delete h (Some r) k) W.
Proof.
  unfold map_delete. intros HW. case_match eqn:E; [|apply stable_refl].
  repeat split; simpl; rewrite ?insert_length; try lia; auto.
  intros r' gm Hr. destruct (decide (r = r')) as [->|Hne]; [by right|].
  left. by rewrite list_lookup_insert_ne.
Qed.

Lemma stable_set_val h p v v' (W : loc → Prop) :
  hvals h !! p = Some v → v_type v = ArrayType → W (LArr p) →
  stable h (set_val h p v') W.
Proof.
  intros Hp Ht HW. repeat split; simpl; rewrite ?insert_length; try lia; auto.
  intros p' v2 Hp'. destruct (decide (p = p')) as [->|Hne].
  - right. by simplify_eq.
  - left. by rewrite list_lookup_insert_ne.
Qed.

Lemma scalar_tree_not_array v t : scalar_tree v = Some t → v_type v ≠ ArrayType.
Proof. unfold scalar_tree. intros H Ht. rewrite Ht in H. destruct (v_obj v); done. Qed.

Lemma scalar_tree_obj v t : scalar_tree v = Some t → v_obj v = None.
Proof. unfold scalar_tree. by destruct (v_obj v). Qed.

Lemma scalar_tree_not_object v t : scalar_tree v = Some t → v_type v ≠ ObjectType.
Proof. unfold scalar_tree. intros H Ht. rewrite Ht in H. destruct (v_obj v); done. Qed.

Definition is_scalar (t : tree) : Prop :=
  match t with
  | TNil | TNilArr | TArr _ | TNilObj | TObj _ => False
  | _ => True
  end.

Lemma scalar_tree_scalar v t : scalar_tree v = Some t → is_scalar t.
Proof. unfold scalar_tree. repeat case_match; intros; by simplify_eq. Qed.

(** Frame for [rep]. *)
Lemma rep_frame_all h :
  (∀ op t fp, rep h op t fp → ∀ h' W, stable h h' W → (∀ l, l ∈ fp → ¬ W l) → rep h' op t fp) ∧
  (∀ ops ts fp, rep_list h ops ts fp → ∀ h' W, stable h h' W → (∀ l, l ∈ fp → ¬ W l) →
     rep_list h' ops ts fp) ∧
  (∀ gm m fp, rep_assoc h gm m fp → ∀ h' W, stable h h' W → (∀ l, l ∈ fp → ¬ W l) →
     rep_assoc h' gm m fp).
Proof.
  assert (∀ p v h' (W : loc → Prop), stable h h' W → hvals h !! p = Some v →
     (v_type v ≠ ArrayType ∨ ¬ W (LArr p)) → hvals h' !! p = Some v) as Hcell.
  { intros p v h' W (H1 & _) Hp Hor. destruct (H1 _ _ Hp); naive_solver. }
  apply rep_mutind; intros; try (constructor; fail).
  - eapply rep_scalar; [|done]. eapply Hcell; eauto. left. by eapply scalar_tree_not_array.
  - eapply rep_nilarr; eauto. eapply Hcell; eauto. right. set_solver.
  - eapply rep_arr; eauto.
    + eapply Hcell; eauto. right. set_solver.
    + eapply H4; eauto. set_solver.
  - eapply rep_nilobj; eauto. eapply Hcell; eauto. left. by rewrite H0.
  - eapply rep_obj; eauto.
    + eapply Hcell; eauto. left. by rewrite H0.
    + match goal with H : stable _ _ _ |- _ => destruct H as (_ & G & _) end.
      destruct (G _ _ H2) as [?|HW]; [done|].
      exfalso. match goal with H : ∀ l, l ∈ _ → ¬ _ |- _ => eapply H; [|exact HW] end. set_solver.
    + match goal with H : ∀ h', _ |- _ => eapply H; eauto end. set_solver.
  - constructor; [eapply H0|eapply H2]; eauto; set_solver.
  - constructor; [eapply H0|eapply H2]; eauto; set_solver.
Qed.

Lemma rep_frame h h' W op t fp :
  rep h op t fp → stable h h' W → (∀ l, l ∈ fp → ¬ W l) → rep h' op t fp.
Proof. intros. by eapply (proj1 (rep_frame_all h)). Qed.
Lemma rep_list_frame h h' W ops ts fp :
  rep_list h ops ts fp → stable h h' W → (∀ l, l ∈ fp → ¬ W l) → rep_list h' ops ts fp.
Proof. intros. by eapply (proj1 (proj2 (rep_frame_all h))). Qed.
Lemma rep_assoc_frame h h' W gm m fp :
  rep_assoc h gm m fp → stable h h' W → (∀ l, l ∈ fp → ¬ W l) → rep_assoc h' gm m fp.
Proof. intros. by eapply (proj2 (proj2 (rep_frame_all h))). Qed.

Lemma rep_alloc_all h :
  (∀ op t fp, rep h op t fp → ∀ l, l ∈ fp → allocated h l) ∧
  (∀ ops ts fp, rep_list h ops ts fp → ∀ l, l ∈ fp → allocated h l) ∧
  (∀ gm m fp, rep_assoc h gm m fp → ∀ l, l ∈ fp → allocated h l).
Proof.
  apply rep_mutind; intros;
    repeat match goal with
    | H : _ ∈ [] |- _ => by apply elem_of_nil in H
    | H : _ ∈ _ :: _ |- _ => apply elem_of_cons in H as [->|H]
    | H : _ ∈ _ ++ _ |- _ => apply elem_of_app in H as [H|H]
    end; simpl; eauto using lookup_lt_Some.
Qed.

Lemma rep_alloc h op t fp l : rep h op t fp → l ∈ fp → allocated h l.
Proof. intros. by eapply (proj1 (rep_alloc_all h)). Qed.
Lemma rep_assoc_alloc h gm m fp l : rep_assoc h gm m fp → l ∈ fp → allocated h l.
Proof. intros. by eapply (proj2 (proj2 (rep_alloc_all h))). Qed.

Lemma not_fresh_allocated h l : allocated h l → ¬ fresh h l.
Proof. destruct l; simpl; lia. Qed.

(** A heap reads as at most one tree. *)
Lemma rep_fun_all h :
  (∀ op t fp, rep h op t fp → ∀ t' fp', rep h op t' fp' → t' = t ∧ fp' = fp) ∧
  (∀ ops ts fp, rep_list h ops ts fp → ∀ ts' fp', rep_list h ops ts' fp' → ts' = ts ∧ fp' = fp) ∧
  (∀ gm m fp, rep_assoc h gm m fp → ∀ m' fp', rep_assoc h gm m' fp' → m' = m ∧ fp' = fp).
Proof.
  Ltac rep_clash :=
    match goal with
    | H : scalar_tree ?v = _, H' : v_type ?v = ArrayType |- _ =>
        by apply scalar_tree_not_array in H
    | H : scalar_tree ?v = _, H' : v_type ?v = ObjectType |- _ =>
        by apply scalar_tree_not_object in H
    | H : v_type ?v = ArrayType, H' : v_type ?v = ObjectType |- _ =>
        rewrite H in H'; discriminate H'
    end.
  apply rep_mutind.
  - intros t' fp' H; inversion H; done.
  - intros p v t Hp Hs t' fp' H; inversion H; simplify_eq; try done; rep_clash.
  - intros p v Hp Ht Ho Ha t' fp' H; inversion H; simplify_eq; try done; rep_clash.
  - intros p v ops ts fps Hp Ht Ho Ha Hl IH t' fp' H; inversion H; simplify_eq; try rep_clash.
    match goal with H : rep_list _ _ _ _ |- _ => apply IH in H as [-> ->]; done end.
  - intros p v Hp Ht Ho t' fp' H; inversion H; simplify_eq; try done; rep_clash.
  - intros p v r gm m fps Hp Ht Ho Hr Hs Hl IH t' fp' H; inversion H; simplify_eq; try rep_clash.
    match goal with H : rep_assoc _ _ _ _ |- _ => apply IH in H as [-> ->]; done end.
  - intros ts' fp' H; inversion H; done.
  - intros op ops t ts fp fps Hr IH Hl IHl ts' fp' H; inversion H; simplify_eq.
    match goal with H : rep _ _ _ _ |- _ => apply IH in H as [-> ->] end.
    match goal with H : rep_list _ _ _ _ |- _ => apply IHl in H as [-> ->] end. done.
  - intros ts' fp' H; inversion H; done.
  - intros k op gm t m fp fps Hr IH Hl IHl ts' fp' H; inversion H; simplify_eq.
    match goal with H : rep _ _ _ _ |- _ => apply IH in H as [-> ->] end.
    match goal with H : rep_assoc _ _ _ _ |- _ => apply IHl in H as [-> ->] end. done.
Qed.

Lemma rep_fun h op t fp t' fp' : rep h op t fp → rep h op t' fp' → t = t'.
Proof. intros H H'. destruct (proj1 (rep_fun_all h) _ _ _ H _ _ H') as [-> _]. done. Qed.

(** Associations: lookup, replacement, insertion, deletion. *)
Lemma rep_assoc_None h gm m fps k :
  rep_assoc h gm m fps → mget k gm = None ↔ mget k m = None.
Proof.
  intros H. induction H as [|k' op gm t m fp fps Hr Ha IH]; simpl; [done|].
  by case_match.
Qed.

Lemma rep_assoc_nil_iff h gm m fps : rep_assoc h gm m fps → gm = [] ↔ m = [].
Proof. intros H. by inversion H. Qed.

Lemma rep_assoc_keys h gm m fps : rep_assoc h gm m fps → mkeys m = mkeys gm.
Proof. intros H. induction H; simpl in *; congruence. Qed.

Lemma rep_assoc_focus h gm m fps k op :
  rep_assoc h gm m fps → msorted gm → mget k gm = Some op →
  ∃ t fp rest, mget k m = Some t ∧ rep h op t fp ∧ fps ≡ₚ fp ++ rest ∧
    ∀ h' W op' t' fp', stable h h' W → (∀ l, l ∈ rest → ¬ W l) → rep h' op' t' fp' →
      ∃ fps', rep_assoc h' (mset k op' gm) (mset k t' m) fps' ∧ fps' ≡ₚ fp' ++ rest.
Proof.
  intros H. induction H as [|k' op0 gm t m fp fps Hr Ha IH]; [done|].
  intros [HF Hs] Hk. simpl in Hk |- *.
  destruct (String.compare k k') eqn:Hc.
  - apply string_compare_eq in Hc as ->. rewrite String.eqb_refl in Hk |- *.
    simplify_eq. exists t, fp, fps. split_and!; try done.
    intros h' W op' t' fp' Hst Hd Hr'. eexists. split; [|done].
    constructor; [done|]. by eapply rep_assoc_frame.
  - exfalso. assert (k ≠ k') as Hne by (by apply slt_ne).
    rewrite (proj2 (String.eqb_neq _ _) Hne) in Hk.
    rewrite mget_lt_None in Hk; [done|].
    eapply Forall_impl; [exact HF|]. simpl. intros kv. by apply slt_trans.
  - assert (k ≠ k') as Hne.
    { intros ->. by rewrite string_compare_refl in Hc. }
    rewrite (proj2 (String.eqb_neq _ _) Hne) in Hk |- *.
    destruct (IH Hs Hk) as (t1 & fp1 & rest & Hm & Hrep & Hperm & Hrec).
    exists t1, fp1, (fp ++ rest). split_and!; try done.
    { rewrite Hperm. rewrite !(assoc_L (++)). by rewrite (comm (++) fp fp1). }
    intros h' W op' t' fp' Hst Hd Hr'.
    destruct (Hrec h' W op' t' fp') as (fps' & Ha' & Hp'); [done|set_solver|done|].
    assert (rep h' op0 t fp) as Hr0 by (eapply rep_frame; [done|done|set_solver]).
    eexists. split; [constructor; [exact Hr0|exact Ha']|].
    rewrite Hp'. rewrite !(assoc_L (++)). by rewrite (comm (++) fp fp').
Qed.

Lemma rep_assoc_insert h gm m fps k :
  rep_assoc h gm m fps → mget k gm = None →
  ∀ h' W op' t' fp', stable h h' W → (∀ l, l ∈ fps → ¬ W l) → rep h' op' t' fp' →
    ∃ fps', rep_assoc h' (mset k op' gm) (mset k t' m) fps' ∧ fps' ≡ₚ fp' ++ fps.
Proof.
  intros H. induction H as [|k' op0 gm t m fp fps Hr Ha IH]; intros Hk h' W op' t' fp' Hst Hd Hr'.
  - eexists. split; [|done]. constructor; [done|constructor].
  - simpl in Hk |- *. destruct (String.eqb_spec k k') as [?|Hne]; [done|].
    assert (rep h' op0 t fp) as Hr0 by (eapply rep_frame; [done|done|set_solver]).
    destruct (String.compare k k') eqn:Hc.
    + apply string_compare_eq in Hc. done.
    + eexists. split; [|done]. constructor; [done|]. constructor; [done|].
      eapply rep_assoc_frame; [done|done|set_solver].
    + destruct (IH Hk h' W op' t' fp') as (fps' & Ha' & Hp'); [done|set_solver|done|].
      eexists. split; [by constructor|].
      rewrite Hp'. rewrite !(assoc_L (++)). by rewrite (comm (++) fp fp').
Qed.

Lemma rep_assoc_mdel h gm m fps k :
  rep_assoc h gm m fps →
  ∃ fps', rep_assoc h (mdel k gm) (mdel k m) fps' ∧ sublist fps' fps.
Proof.
  intros H. induction H as [|k' op0 gm t m fp fps Hr Ha (fps' & IH & Hsub)].
  - eexists. split; [constructor|done].
  - simpl. case_match.
    + exists fps'. split; [done|]. by apply sublist_inserts_l.
    + exists (fp ++ fps'). split; [by constructor|]. by apply sublist_app.
Qed.

(** ** Lookup refines [tget] *)
Lemma rep_not_object_map h p v t fp :
  rep h (Some p) t fp → hvals h !! p = Some v → ¬ is_object t → v_obj v = None.
Proof.
  intros H Hp Hno. inversion H; simplify_eq; try done;
    first [by eapply scalar_tree_obj | by destruct Hno].
Qed.

Lemma rep_not_object_type h p v t fp :
  rep h (Some p) t fp → hvals h !! p = Some v → ¬ is_object t → t ≠ TNilObj →
  v_type v ≠ ObjectType.
Proof.
  intros H Hp Hno Hn. inversion H; simplify_eq; try done;
    try (by eapply scalar_tree_not_object); try (by destruct Hno);
    match goal with H : v_type _ = _ |- _ => by rewrite H end.
Qed.

Lemma rep_Some h p t fp : rep h (Some p) t fp → t ≠ TNil.
Proof.
  intros H. inversion H; simplify_eq; try done.
  intros ->. match goal with H : scalar_tree _ = _ |- _ => by apply scalar_tree_scalar in H end.
Qed.

Lemma rep_None h t fp : rep h None t fp → t = TNil.
Proof. intros H. by inversion H. Qed.

Lemma rep_deref h p t fp : rep h (Some p) t fp → ∃ v, hvals h !! p = Some v.
Proof. intros H. inversion H; eauto. Qed.

Lemma map_of_Some h r gm : hmaps h !! r = Some gm → map_of h (Some r) = gm.
Proof. simpl. by intros ->. Qed.

Lemma get_loop_cons h m k k2 rest :
  get_loop h m (k :: k2 :: rest) =
  match mget k (map_of h m) with
  | None => Ok None
  | Some op =>
      match deref h op with
      | Panic => Panic
      | Ok inner =>
          match map_of h (v_obj inner) with
          | [] => Ok None
          | _ => get_loop h (v_obj inner) (k2 :: rest)
          end
      end
  end.
Proof. reflexivity. Qed.

Lemma tget_cons k k2 rest m :
  tget (k :: k2 :: rest) m =
  match mget k m with
  | None => Ok None
  | Some TNil => Panic
  | Some (TObj mi) => tget (k2 :: rest) mi
  | Some _ => Ok None
  end.
Proof. simpl. by destruct (mget k m) as [[]|]. Qed.

Lemma tget_empty k rest : tget (k :: rest) [] = Ok None.
Proof. by destruct rest. Qed.

Lemma get_loop_ref path h r gm m fps :
  hmaps h !! r = Some gm → msorted gm → rep_assoc h gm m fps → path ≠ [] →
  match tget path m with
  | Panic => get_loop h (Some r) path = Panic
  | Ok None => get_loop h (Some r) path = Ok None
  | Ok (Some t) => ∃ p fp, get_loop h (Some r) path = Ok (Some p) ∧ rep h (Some p) t fp ∧
                     sublist fp fps
  end.
Proof.
  revert r gm m fps. induction path as [|k rest IH]; intros r gm m fps Hr Hs Ha Hne; [done|].
  destruct rest as [|k2 rest].
  - cbn [tget get_loop]. rewrite (map_of_Some _ _ _ Hr).
    destruct (mget k gm) as [op|] eqn:Hk.
    + clear IH. revert Hk. clear Hr Hs. induction Ha as [|k' op' gm t m fp fps Hrep Ha IH]; [done|].
      simpl. destruct (String.eqb_spec k k') as [->|Hne'].
      * intros [= ->]. destruct op as [p|].
        -- assert (t ≠ TNil) as Hnn by (by eapply rep_Some).
           assert (∃ p0 fp0, @Ok (option ptr) (Some p) = Ok (Some p0) ∧ rep h (Some p0) t fp0 ∧
                     sublist fp0 (fp ++ fps)) as G.
           { exists p, fp. split_and!; try done. by apply sublist_inserts_r. }
           by destruct t.
        -- apply rep_None in Hrep as ->. done.
      * intros Hk. specialize (IH Hk). destruct (mget k m) as [t'|]; [|done].
        destruct t'; try done; destruct IH as (p & fp0 & ? & ? & ?); exists p, fp0;
          (split_and!; try done; by apply sublist_inserts_l).
    + rewrite (proj1 (rep_assoc_None _ _ _ _ k Ha) Hk). done.
  - rewrite tget_cons, get_loop_cons, (map_of_Some _ _ _ Hr).
    destruct (mget k gm) as [op|] eqn:Hk.
    + assert (∃ t fp, mget k m = Some t ∧ rep h op t fp ∧ sublist fp fps) as (t & fp & Hm & Hrep & Hsub).
      { clear -Ha Hk. induction Ha as [|k' op' gm t m fp fps Hrep Ha IH]; [done|].
        simpl in *. case_match.
        - simplify_eq. exists t, fp. split_and!; try done. by apply sublist_inserts_r.
        - destruct (IH Hk) as (t1 & fp1 & ? & ? & ?). exists t1, fp1. split_and!; try done.
          by apply sublist_inserts_l. }
      rewrite Hm. destruct op as [p|]; [|by apply rep_None in Hrep as ->].
      destruct (rep_deref _ _ _ _ Hrep) as [v Hp]. cbn [deref]. rewrite Hp.
      destruct (is_object_dec t) as [[mi ->]|Hno].
      * inversion Hrep; simplify_eq.
        { match goal with H : scalar_tree _ = _ |- _ => by apply scalar_tree_scalar in H end. }
        match goal with H : v_obj _ = Some _ |- _ => rewrite H end.
        match goal with H : hmaps h !! ?r1 = Some ?g |- _ =>
          match r1 with r => fail 1 | _ => rewrite (map_of_Some _ _ _ H) end end.
        match goal with H : rep_assoc h ?g mi _ |- _ => destruct g as [|e0 g0] end.
        { match goal with H : rep_assoc _ [] mi _ |- _ => inversion H; subst end.
          by rewrite tget_empty. }
        match goal with H : rep_assoc _ (_ :: _) mi _, G : hmaps h !! _ = Some (_ :: _) |- _ =>
          specialize (IH _ _ _ _ G ltac:(done) H ltac:(done)) end.
        destruct (tget (k2 :: rest) mi) as [[t|]|]; try done.
        destruct IH as (p' & fp' & ? & ? & ?). exists p', fp'. split_and!; try done.
        etrans; [done|]. etrans; [|done]. by apply sublist_cons.
      * rewrite (rep_not_object_map _ _ _ _ _ Hrep Hp Hno). simpl.
        assert (t ≠ TNil) by (by eapply rep_Some).
        by destruct t.
    + rewrite (proj1 (rep_assoc_None _ _ _ _ k Ha) Hk). done.
Qed.

(** ** Update refines [tput] *)
Lemma put_loop_cons full h m k k2 rest val :
  put_loop full h m (k :: k2 :: rest) val =
  match mget k (map_of h m) with
  | Some op =>
      match deref h op with
      | Panic => Panic
      | Ok inner =>
          if N.eqb (v_type inner) ObjectType
          then put_loop full h (v_obj inner) (k2 :: rest) val
          else Ok (h, Some (EWrap (errPathPrefix full) (ESent STargetKeyNotObject)))
      end
  | None =>
      let '(h1, r) := alloc_map h in
      let '(h2, p) := alloc_val h1 (mkObject (Some r)) in
      match map_write h2 m k (Some p) with
      | Panic => Panic
      | Ok h3 => put_loop full h3 (Some r) (k2 :: rest) val
      end
  end.
Proof. reflexivity. Qed.

Lemma map_write_Some h r gm k op :
  hmaps h !! r = Some gm →
  map_write h (Some r) k op = Ok (mkHeap (hvals h) (<[r := mset k op gm]> (hmaps h))).
Proof. simpl. by intros ->. Qed.

Definition errNotObject (full : list string) : goerr :=
  EWrap (errPathPrefix full) (ESent STargetKeyNotObject).

Lemma put_loop_nil_map full h k rest val :
  put_loop full h None (k :: rest) val = Panic.
Proof. destruct rest; reflexivity. Qed.

Lemma tput_nil_ok path tv : path ≠ [] → ∃ m', tput path tv [] = Ok (Some m').
Proof.
  induction path as [|k rest IH]; intros Hne; [done|]. destruct rest as [|k2 rest]; [by eexists|].
  rewrite tput_cons. cbn [mget]. destruct IH as [m' ->]; [done|]. by eexists.
Qed.

Lemma get_loop_empty h r path : hmaps h !! r = Some [] → get_loop h (Some r) path = Ok None.
Proof. intros Hr. destruct path as [|k [|k2 path]]; simpl; [done| |]; by rewrite Hr. Qed.

Lemma put_loop_ref full path h r gm m fps p tv fpv :
  hmaps h !! r = Some gm → msorted gm → rep_assoc h gm m fps → path ≠ [] →
  rep h (Some p) tv fpv → NoDup (LMap r :: fps ++ fpv) →
  match tput path tv m with
  | Panic => put_loop full h (Some r) path (Some p) = Panic
  | Ok None => put_loop full h (Some r) path (Some p) = Ok (h, Some (errNotObject full))
  | Ok (Some m') =>
      ∃ h' gm' fps', put_loop full h (Some r) path (Some p) = Ok (h', None) ∧
        hmaps h' !! r = Some gm' ∧ msorted gm' ∧ rep_assoc h' gm' m' fps' ∧
        NoDup (LMap r :: fps') ∧
        (∀ l, l ∈ fps' → l ∈ fps ∨ l ∈ fpv ∨ fresh h l) ∧
        stable h h' (λ l, l = LMap r ∨ l ∈ fps) ∧
        get_loop h' (Some r) path = Ok (Some p) ∧ rep h' (Some p) tv fpv ∧
        (∀ q t fpq, get_loop h (Some r) path = Ok (Some q) → rep h (Some q) t fpq →
           rep h' (Some q) t fpq ∧ NoDup fpq ∧
           ∀ l, l ∈ fpq → l ∈ fps ∧ l ∉ fps')
  end.
Proof.
  revert h r gm m fps. induction path as [|k rest IH];
    intros h r gm m fps Hr Hs Ha Hne Hv Hnd; [done|].
  apply NoDup_cons in Hnd as [Hrn Hnd].
  destruct rest as [|k2 rest].
  { (* final write *)
    cbn [tput put_loop]. rewrite (map_write_Some _ _ _ _ _ Hr).
    set (h' := mkHeap _ _).
    assert (stable h h' (λ l, l = LMap r)) as Hst.
    { eapply stable_map_write; [by apply map_write_Some|done]. }
    assert (rep h' (Some p) tv fpv) as Hv'.
    { eapply rep_frame; [done|done|]. intros l Hl ->. apply Hrn. set_solver. }
    assert (hmaps h' !! r = Some (mset k (Some p) gm)) as Hr'.
    { simpl. apply list_lookup_insert. by eapply lookup_lt_Some. }
    destruct (mget k gm) as [op|] eqn:Hk.
    - destruct (rep_assoc_focus _ _ _ _ _ _ Ha Hs Hk) as (t & fp & rest & Hm & Hrep & Hperm & Hrec).
      destruct (Hrec h' (λ l, l = LMap r) (Some p) tv fpv) as (fps' & Ha' & Hp'); [done| |done|].
      { intros l Hl ->. apply Hrn. rewrite Hperm. set_solver. }
      exists h', (mset k (Some p) gm), fps'. split_and!; try done.
      + by apply msorted_mset.
      + apply NoDup_cons. rewrite Hp'. rewrite Hperm in Hrn, Hnd. split; [set_solver|].
        rewrite <-(assoc_L (++)) in Hnd. apply NoDup_app in Hnd as (_ & _ & Hnd).
        by rewrite (comm (++)).
      + intros l. rewrite Hp', Hperm. set_solver.
      + eapply stable_weaken; [done|]. naive_solver.
      + cbn [get_loop]. by rewrite (map_of_Some _ _ _ Hr'), mget_mset_eq.
      + intros q t' fpq. cbn [get_loop]. rewrite (map_of_Some _ _ _ Hr), Hk.
        intros [= ->] Hq. destruct (proj1 (rep_fun_all h) _ _ _ Hrep _ _ Hq) as [-> ->].
        rewrite Hperm in Hrn, Hnd.
        split; [|split].
        * eapply rep_frame; [exact Hrep|exact Hst|]. intros l Hl ->. apply Hrn. set_solver.
        * rewrite <-(assoc_L (++)) in Hnd. by apply NoDup_app in Hnd as (? & _ & _).
        * intros l Hl. rewrite Hp', Hperm. split; [set_solver|].
          rewrite <-(assoc_L (++)) in Hnd. apply NoDup_app in Hnd as (_ & A2 & _).
          specialize (A2 l Hl). set_solver.
    - destruct (rep_assoc_insert _ _ _ _ _ Ha Hk h' (λ l, l = LMap r) (Some p) tv fpv)
        as (fps' & Ha' & Hp'); [done| |done|].
      { intros l Hl ->. apply Hrn. set_solver. }
      exists h', (mset k (Some p) gm), fps'. split_and!; try done.
      + by apply msorted_mset.
      + apply NoDup_cons. rewrite Hp'. split; [set_solver|]. by rewrite (comm (++)).
      + intros l. rewrite Hp'. set_solver.
      + eapply stable_weaken; [done|]. naive_solver.
      + cbn [get_loop]. by rewrite (map_of_Some _ _ _ Hr'), mget_mset_eq.
      + intros q t' fpq. cbn [get_loop]. rewrite (map_of_Some _ _ _ Hr), Hk. done. }
  rewrite tput_cons, put_loop_cons, (map_of_Some _ _ _ Hr).
  destruct (mget k gm) as [op|] eqn:Hk.
  - (* existing entry *)
    destruct (rep_assoc_focus _ _ _ _ _ _ Ha Hs Hk) as (t & fp & frest & Hm & Hrep & Hperm & Hrec).
    rewrite Hm. destruct op as [q|]; [|by apply rep_None in Hrep as ->].
    destruct (rep_deref _ _ _ _ Hrep) as [v Hp]. cbn [deref]. rewrite Hp.
    destruct (is_object_dec t) as [[mi ->]|Hno].
    + inversion Hrep; simplify_eq.
      { match goal with H : scalar_tree _ = _ |- _ => by apply scalar_tree_scalar in H end. }
      rename r0 into ri, gm0 into gmi, fps0 into fpi.
      match goal with H : v_type _ = _, H' : v_obj _ = _ |- _ =>
        rename H into Hty; rename H' into Hobj; rewrite Hty, Hobj end.
      cbn [N.eqb]. rewrite N.eqb_refl.
      match goal with H : hmaps h !! ri = _, H' : msorted gmi, H'' : rep_assoc _ gmi _ _ |- _ =>
        rename H into Hri; rename H' into Hsi; rename H'' into Hai end.
      rewrite Hperm in Hrn, Hnd. simpl in Hnd.
      assert (NoDup (LMap ri :: fpi ++ fpv)) as Hnd1.
      { apply NoDup_cons in Hnd as [Hn1 Hnd]. apply NoDup_cons. split; [set_solver|].
        rewrite <-(assoc_L (++)) in Hnd. apply NoDup_app in Hnd as (A1 & A2 & A3).
        apply NoDup_app in A3 as (A4 & A5 & A6). apply NoDup_app. set_solver. }
      specialize (IH h ri gmi mi fpi Hri Hsi Hai ltac:(done) Hv Hnd1).
      destruct (tput (k2 :: rest) tv mi) as [[mi'|]|]; [|exact IH|exact IH].
      destruct IH as (h' & gmi' & fpi' & Hput & Hri' & Hsi' & Hai' & Hndi & Hin & Hst & Hgp & Hvp & Hold).
      set (Wi := λ l, l = LMap ri ∨ l ∈ fpi) in Hst.
      assert (r ≠ ri) as Hrne by (intros ->; set_solver).
      assert (hmaps h' !! r = Some gm) as Hr'.
      { destruct Hst as (_ & G & _). destruct (G _ _ Hr) as [?|HW]; [done|].
        exfalso. destruct HW as [?|?]; [congruence|]. set_solver. }
      assert (hvals h' !! q = Some v) as Hq'.
      { destruct Hst as (G & _). destruct (G _ _ Hp) as [?|[_ HW]]; [done|].
        rewrite Hty in HW. done. }
      assert (rep h' (Some q) (TObj mi') (LMap ri :: fpi')) as Hrep'.
      { eapply rep_obj; eauto. }
      assert (∀ l, l ∈ frest → ¬ Wi l) as HWi.
      { intros l Hl [->|Hl2].
        - apply NoDup_cons in Hnd as [Hn1 _]. set_solver.
        - apply NoDup_cons in Hnd as [_ Hnd]. rewrite <-(assoc_L (++)) in Hnd.
          apply NoDup_app in Hnd as (_ & A2 & _). set_solver. }
      destruct (Hrec h' Wi (Some q) (TObj mi') (LMap ri :: fpi')) as (fps' & Ha' & Hp');
        [done|done|done|].
      assert (mset k (Some q) gm = gm) as Hgm.
      { apply gomap_ext; [by apply msorted_mset|done|]. intros k'.
        rewrite mget_mset. case_match eqn:Ek; [|done]. by apply String.eqb_eq in Ek as ->. }
      rewrite Hgm in Ha'.
      assert (∀ l, l ∈ frest → allocated h l) as Hall.
      { intros l Hl. eapply rep_assoc_alloc; [exact Ha|]. rewrite Hperm. set_solver. }
      exists h', gm, fps'. split_and!; try done.
      * apply NoDup_cons. rewrite Hp'. split.
        { intros Hl. simpl in Hl. apply elem_of_cons in Hl as [?|Hl]; [congruence|].
          apply elem_of_app in Hl as [Hl|Hl]; [|set_solver].
          destruct (Hin _ Hl) as [?|[?|Hf]]; [set_solver|set_solver|].
          simpl in Hf. apply lookup_lt_Some in Hr. lia. }
        simpl. change (LMap ri :: fpi' ++ frest) with ((LMap ri :: fpi') ++ frest).
        apply NoDup_app. split; [done|]. split.
        -- intros l Hl Hl2. apply elem_of_cons in Hl as [->|Hl].
           { by eapply HWi; [exact Hl2|left]. }
           destruct (Hin _ Hl) as [Hl3|[Hl3|Hf]].
           ++ eapply HWi; [exact Hl2|by right].
           ++ apply NoDup_cons in Hnd as [_ Hnd]. 
              apply NoDup_app in Hnd as (_ & A2 & _). apply (A2 l); set_solver.
           ++ by eapply not_fresh_allocated; [by apply Hall|].
        -- apply NoDup_cons in Hnd as [_ Hnd]. apply NoDup_app in Hnd as (Hnd & _).
           by apply NoDup_app in Hnd as (_ & _ & ?).
      * intros l. rewrite Hp', Hperm. simpl. rewrite !elem_of_cons, !elem_of_app.
        intros [->|[Hl|Hl]]; [by left; left| |by left; right; right].
        destruct (Hin _ Hl) as [?|[?|?]]; auto.
      * eapply stable_weaken; [exact Hst|]. intros l. unfold Wi. rewrite Hperm. set_solver.
      * rewrite get_loop_cons, (map_of_Some _ _ _ Hr'), Hk. cbn [deref].
        rewrite Hq', Hobj, (map_of_Some _ _ _ Hri'). destruct gmi' as [|e0 gmi']; [|done].
        exfalso. rewrite (get_loop_empty _ _ _ Hri') in Hgp. done.
      * intros q' t' fpq. rewrite get_loop_cons, (map_of_Some _ _ _ Hr), Hk. cbn [deref].
        rewrite Hp, Hobj, (map_of_Some _ _ _ Hri). destruct gmi as [|e0 gmi]; [done|].
        intros Hg Hq. destruct (Hold _ _ _ Hg Hq) as (Hq2 & Hnq & Hl).
        split; [done|]. split; [done|]. intros l Hl0. destruct (Hl l Hl0) as [Hl1 Hl2].
        rewrite Hp', Hperm. split; [set_solver|]. simpl. rewrite elem_of_cons, elem_of_app.
        intros [->|[?|Hl3]]; [|done|].
        { apply NoDup_cons in Hnd1 as [Hnd1 _]. set_solver. }
        by eapply HWi; [exact Hl3|right].
    + assert (t ≠ TNil) by (by eapply rep_Some).
      destruct (decide (v_type v = ObjectType)) as [Hty|Hty].
      * assert (t = TNilObj) as ->.
        { inversion Hrep; simplify_eq; try done; exfalso;
            first [ by eapply scalar_tree_not_object
                  | match goal with H : v_type v = ArrayType |- _ => by rewrite Hty in H end
                  | by destruct Hno ]. }
        rewrite Hty, N.eqb_refl.
        rewrite (rep_not_object_map _ _ _ _ _ Hrep Hp Hno). apply put_loop_nil_map.
      * rewrite (proj2 (N.eqb_neq _ _) Hty).
        destruct t; try done; exfalso; inversion Hrep; simplify_eq; try done;
          match goal with H : scalar_tree _ = _ |- _ => by apply scalar_tree_scalar in H end.
  - (* new object *)
    rewrite (proj1 (rep_assoc_None _ _ _ _ k Ha) Hk). cbn [alloc_map alloc_val].
    set (r1 := length (hmaps h)). set (q := length (hvals h)).
    assert (r1 = length (hmaps h)) as Er1 by done.
    assert (q = length (hvals h)) as Eq by done.
    set (h2 := mkHeap (hvals h ++ [mkObject (Some r1)]) (hmaps h ++ [[]])).
    assert (r < r1) as Hrlt by (by eapply lookup_lt_Some).
    assert (hmaps h2 !! r = Some gm) as Hr2.
    { simpl. by apply lookup_app_l_Some. }
    cbn [hvals hmaps]. fold h2.
    rewrite (map_write_Some _ _ _ _ _ Hr2). set (h3 := mkHeap _ _).
    assert (∀ W, stable h h2 W) as Hst2.
    { intros W. eapply stable_trans; [apply (stable_alloc_map h W)|].
      apply (stable_alloc_val (alloc_map h).1 (mkObject (Some r1)) W). }
    assert (stable h2 h3 (λ l, l = LMap r)) as Hst3.
    { eapply stable_map_write; [by apply map_write_Some|done]. }
    assert (stable h h3 (λ l, l = LMap r)) as Hst03 by (eapply stable_trans; eauto).
    assert (hmaps h3 !! r1 = Some []) as Hr1.
    { simpl. rewrite list_lookup_insert_ne by lia. rewrite lookup_app_r by apply Nat.le_refl.
      unfold r1. by rewrite Nat.sub_diag. }
    assert (hmaps h3 !! r = Some (mset k (Some q) gm)) as Hr3.
    { simpl. apply list_lookup_insert. rewrite app_length. simpl. lia. }
    assert (rep h3 (Some p) tv fpv) as Hv3.
    { eapply rep_frame; [done|exact Hst03|]. intros l Hl ->. apply Hrn. set_solver. }
    assert (hvals h3 !! q = Some (mkObject (Some r1))) as Hq.
    { simpl. rewrite lookup_app_r by lia. unfold q. by rewrite Nat.sub_diag. }
    assert (∀ l, l ∈ fps ++ fpv → allocated h l) as Hall.
    { intros l Hl. apply elem_of_app in Hl as [Hl|Hl].
      - by eapply rep_assoc_alloc. - by eapply rep_alloc. }
    assert (NoDup (LMap r1 :: [] ++ fpv)) as Hnd1.
    { apply NoDup_cons. split; [|by apply NoDup_app in Hnd as (_ & _ & ?)].
      intros Hl. assert (allocated h (LMap r1)) as Hal by (apply Hall; set_solver).
      simpl in Hal. unfold r1 in Hal. lia. }
    specialize (IH h3 r1 [] [] [] Hr1 I ltac:(constructor) ltac:(done) Hv3 Hnd1).
    destruct (tput_nil_ok (k2 :: rest) tv ltac:(done)) as [mi' Etp]. rewrite Etp in IH |- *.
    destruct IH as (h' & gmi' & fpi' & Hput & Hri' & Hsi' & Hai' & Hndi & Hin & Hst & Hgp & Hvp & Hold).
    assert (stable h h' (λ l, l = LMap r)) as Hst0.
    { eapply stable_trans_fresh; [exact Hst03|exact Hst|].
      intros l [->|Hl]; [right; simpl; lia|]. by apply elem_of_nil in Hl. }
    assert (hmaps h' !! r = Some (mset k (Some q) gm)) as Hr'.
    { destruct Hst as (_ & G & _). destruct (G _ _ Hr3) as [?|[[= ?]|HW]]; [done|lia|].
      by apply elem_of_nil in HW. }
    assert (hvals h' !! q = Some (mkObject (Some r1))) as Hq'.
    { destruct Hst as (G & _). destruct (G _ _ Hq) as [?|[_ HW]]; [done|]. done. }
    assert (rep h' (Some q) (TObj mi') (LMap r1 :: fpi')) as Hrep'.
    { eapply rep_obj; eauto. }
    destruct (rep_assoc_insert _ _ _ _ _ Ha Hk h' (λ l, l = LMap r) (Some q) (TObj mi') (LMap r1 :: fpi'))
        as (fps' & Ha' & Hp'); [done| |done|].
    { intros l Hl ->. apply Hrn. set_solver. }
    exists h', (mset k (Some q) gm), fps'. split_and!; try done.
    + by apply msorted_mset.
    + assert (∀ l, l ∈ fpi' → l ∈ fpv ∨ fresh h l) as Hin'.
      { intros l Hl. destruct (Hin _ Hl) as [Hl2|[?|Hf]]; [by apply elem_of_nil in Hl2|by left|].
        right. destruct l; simpl in *; rewrite ?insert_length, ?app_length in Hf; simpl in *; lia. }
      apply NoDup_cons. rewrite Hp'. split.
      * simpl. rewrite elem_of_cons, elem_of_app. intros [[= ?]|[Hl|Hl]]; [lia| |set_solver].
        destruct (Hin' _ Hl) as [?|Hf]; [set_solver|]. simpl in Hf. lia.
      * apply NoDup_app. split; [done|]. split; [|by apply NoDup_app in Hnd as (? & _)].
        intros l Hl Hl2. apply elem_of_cons in Hl as [->|Hl].
        { assert (allocated h (LMap r1)) as Hal by (apply Hall; set_solver). simpl in Hal. lia. }
        destruct (Hin' _ Hl) as [Hl3|Hf].
        -- apply NoDup_app in Hnd as (_ & A2 & _). by apply (A2 l).
        -- eapply not_fresh_allocated; [|exact Hf]. apply Hall. set_solver.
    + intros l. rewrite Hp'. simpl. rewrite elem_of_cons, elem_of_app.
      intros [->|[Hl|Hl]]; [right; right; simpl; lia| |by left].
      destruct (Hin _ Hl) as [Hl2|[?|Hf]]; [by apply elem_of_nil in Hl2|by right; left|].
      right; right. destruct l; simpl in *; rewrite ?insert_length, ?app_length in Hf; simpl in *; lia.
    + eapply stable_weaken; [exact Hst0|]. naive_solver.
    + rewrite get_loop_cons, (map_of_Some _ _ _ Hr'), mget_mset_eq. cbn [deref].
      rewrite Hq'. cbn [v_obj mkObject]. rewrite (map_of_Some _ _ _ Hri').
      destruct gmi' as [|e0 gmi']; [|done].
      exfalso. rewrite (get_loop_empty _ _ _ Hri') in Hgp. done.
    + intros q' t' fpq. rewrite get_loop_cons, (map_of_Some _ _ _ Hr), Hk. done.
Qed.
