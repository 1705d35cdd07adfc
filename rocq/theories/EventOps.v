(** * Event-level refinement lemmas and operation sequences. *)
From Verif Require Export EventRefine.

(** ** Specification of one call *)

(** What a call returns, as trees. *)
Record sresult : Type := mkSRes { s_val : option tree; s_err : option goerr }.

Definition err_empty : goerr := EWrap "event put failed: " (ESent SEmptyKey).
Definition err_exists (path : list string) : goerr :=
  EWrap (errPathPrefix path) (ESent SKeyExists).

(** Put (overwrite = true) and TryPut (overwrite = false) on a nested map. *)
Definition spec_put (overwrite : bool) (path : list string) (tv : tree) (m : gomap tree)
  : Outcome (gomap tree * sresult) :=
  match path with
  | [] => Ok (m, mkSRes None (Some err_empty))
  | _ =>
      match tv with
      | TNil => Ok (m, mkSRes None None)
      | _ =>
          match tget path m with
          | Panic => Panic
          | Ok old =>
              if (match old with Some _ => true | None => false end) && negb overwrite
              then Ok (m, mkSRes old (Some (err_exists path)))
              else
                match tput path tv m with
                | Panic => Panic
                | Ok None => Ok (m, mkSRes None (Some (errNotObject path)))
                | Ok (Some m') => Ok (m', mkSRes old None)
                end
          end
      end
  end.

Definition spec_get (path : list string) (m : gomap tree) : Outcome (gomap tree * sresult) :=
  match tget path m with
  | Panic => Panic
  | Ok v => Ok (m, mkSRes v None)
  end.

(** Delete as the code performs it: when the path exists, the whole top-level
    field is removed. *)
Definition spec_delete (path : list string) (m : gomap tree) : Outcome (gomap tree * sresult) :=
  match path with
  | [] => Ok (m, mkSRes None None)
  | k :: _ =>
      match tget path m with
      | Panic => Panic
      | Ok None => Ok (m, mkSRes None None)
      | Ok (Some t) => Ok (mdel k m, mkSRes (Some t) None)
      end
  end.

(** [res] read in heap [h] is the specified result. *)
Definition obs (h : heap) (op : option ptr) (o : option tree) : Prop :=
  match o with
  | None => op = None
  | Some t => ∃ p fp, op = Some p ∧ rep h (Some p) t fp
  end.

(** ** Building fresh values *)
Definition alloc_map_with (h : heap) (gm : gomap (option ptr)) : heap * mref :=
  (mkHeap (hvals h) (hmaps h ++ [gm]), length (hmaps h)).

Definition alloc_some (h : heap) (v : Value) : heap * option ptr :=
  let '(h', p) := alloc_val h v in (h', Some p).

Fixpoint alloc_tree (h : heap) (t : tree) : heap * option ptr :=
  match t with
  | TNil => (h, None)
  | TNull => alloc_some h mkNull
  | TBool b => alloc_some h (mkBool b)
  | TInt z => alloc_some h (mkInteger z)
  | TUint z => alloc_some h (mkUnsignedInteger z)
  | TFloat z => alloc_some h (mkFloat z)
  | TStr s => alloc_some h (mkString s)
  | TTime z => alloc_some h (mkTimestamp z)
  | TNilArr => alloc_some h (mkArray [])
  | TArr l =>
      let '(h1, ops) :=
        (fix go (h : heap) (l : list tree) : heap * list (option ptr) :=
           match l with
           | [] => (h, [])
           | t :: l' =>
               let '(h1, op) := alloc_tree h t in
               let '(h2, ops) := go h1 l' in (h2, op :: ops)
           end) h l in
      alloc_some h1 (mkValue 0 0 0 0 "" (Some ops) None false ArrayType)
  | TNilObj => alloc_some h (mkObject None)
  | TObj m =>
      let '(h1, gm) :=
        (fix go (h : heap) (m : gomap tree) : heap * gomap (option ptr) :=
           match m with
           | [] => (h, [])
           | (k, t) :: m' =>
               let '(h1, op) := alloc_tree h t in
               let '(h2, gm) := go h1 m' in (h2, (k, op) :: gm)
           end) h m in
      let '(h2, r) := alloc_map_with h1 gm in
      alloc_some h2 (mkObject (Some r))
  end.

Fixpoint alloc_list (h : heap) (l : list tree) : heap * list (option ptr) :=
  match l with
  | [] => (h, [])
  | t :: l' =>
      let '(h1, op) := alloc_tree h t in
      let '(h2, ops) := alloc_list h1 l' in (h2, op :: ops)
  end.
Fixpoint alloc_assoc (h : heap) (m : gomap tree) : heap * gomap (option ptr) :=
  match m with
  | [] => (h, [])
  | (k, t) :: m' =>
      let '(h1, op) := alloc_tree h t in
      let '(h2, gm) := alloc_assoc h1 m' in (h2, (k, op) :: gm)
  end.

Lemma alloc_tree_arr h l :
  alloc_tree h (TArr l) =
  let '(h1, ops) := alloc_list h l in
  alloc_some h1 (mkValue 0 0 0 0 "" (Some ops) None false ArrayType).
Proof.
  simpl. match goal with |- (let '(_, _) := ?f h l in _) = _ => assert (f h l = alloc_list h l) as -> end; [|done].
  revert h. induction l as [|t l IH]; intros h; simpl; [done|].
  destruct (alloc_tree h t) as [h1 op]. by rewrite IH.
Qed.
Lemma alloc_tree_obj h m :
  alloc_tree h (TObj m) =
  let '(h1, gm) := alloc_assoc h m in
  let '(h2, r) := alloc_map_with h1 gm in
  alloc_some h2 (mkObject (Some r)).
Proof.
  cbn [alloc_tree].
  match goal with |- (let '(_, _) := ?f h m in _) = _ => assert (f h m = alloc_assoc h m) as -> end; [|done].
  revert h. induction m as [|[k t] m IH]; intros h; simpl; [done|].
  destruct (alloc_tree h t) as [h1 op]. by rewrite IH.
Qed.

(** Maps inside the tree are canonical (sorted, no duplicate names). *)
Fixpoint tsorted (t : tree) : Prop :=
  match t with
  | TArr l => (fix go l := match l with [] => True | t :: l' => tsorted t ∧ go l' end) l
  | TObj m =>
      msorted m ∧
      (fix go (m : list (string * tree)) :=
         match m with [] => True | (_, t) :: m' => tsorted t ∧ go m' end) m
  | _ => True
  end.

Lemma tsorted_arr l : tsorted (TArr l) ↔ Forall tsorted l.
Proof. simpl. induction l as [|t l IH]; [by split|]. rewrite Forall_cons, IH. done. Qed.
Lemma tsorted_obj m : tsorted (TObj m) ↔ msorted m ∧ Forall (λ kv, tsorted kv.2) m.
Proof.
  simpl. apply and_iff_compat_l.
  induction m as [|[k t] m IH]; [by split|]. rewrite Forall_cons, IH. done.
Qed.

Lemma tclean_tsorted t : tclean t → tsorted t.
Proof.
  induction t as [| | | | | | | | |l IH| |m IH] using tree_ind'; try done.
  - rewrite tclean_arr, tsorted_arr. intros H. induction H; inversion IH; simplify_eq; eauto.
  - intros [Hs H]. apply tsorted_obj. split; [done|]. clear Hs.
    induction m as [|[k t] m IHm]; [done|]. inversion IH; simplify_eq. destruct H as [Ht Hm].
    constructor; eauto.
Qed.

Notation noW := (λ _ : loc, False).

Lemma fresh_mono h h' l : stable h h' noW → fresh h' l → fresh h l.
Proof. intros (_ & _ & H1 & H2). destruct l; simpl; lia. Qed.
Lemma allocated_mono h h' W l : stable h h' W → allocated h l → allocated h' l.
Proof. intros (_ & _ & H1 & H2). destruct l; simpl; lia. Qed.

Lemma alloc_some_stable h v : stable h (alloc_some h v).1 noW.
Proof. exact (stable_alloc_val h v noW). Qed.

Lemma alloc_scalar_rep h v t h' op :
  alloc_some h v = (h', op) → scalar_tree v = Some t → rep h' op t [].
Proof.
  unfold alloc_some. simpl. intros [= <- <-] Hs. eapply rep_scalar; [|done]. simpl.
  rewrite lookup_app_r by apply Nat.le_refl. by rewrite Nat.sub_diag.
Qed.

Lemma alloc_scalar h v t h' op :
  alloc_some h v = (h', op) → scalar_tree v = Some t →
  stable h h' noW ∧ ∃ fp, rep h' op t fp ∧ NoDup fp ∧ ∀ l, l ∈ fp → fresh h l.
Proof.
  intros Hal Hs. split.
  - pose proof (alloc_some_stable h v) as H. by rewrite Hal in H.
  - exists []. split; [by eapply alloc_scalar_rep|]. split; [constructor|set_solver].
Qed.

Lemma alloc_tree_rep t h h' op :
  tsorted t → alloc_tree h t = (h', op) →
  stable h h' noW ∧ ∃ fp, rep h' op t fp ∧ NoDup fp ∧ ∀ l, l ∈ fp → fresh h l.
Proof.
  revert h h' op.
  induction t as [| | | | | | | | |l IH| |m IH] using tree_ind'; intros h h' op Hts Hal;
    try (by eapply alloc_scalar; [exact Hal|done]).
  - simpl in Hal. simplify_eq. split; [apply stable_refl|].
    exists []. split; [constructor|]. split; [constructor|set_solver].
  - (* nil array *)
    simpl in Hal. unfold alloc_some in Hal. simpl in Hal. simplify_eq.
    split; [apply (stable_alloc_val h)|]. exists [LArr (length (hvals h))].
    split; [|split; [apply NoDup_singleton|]].
    + apply (rep_nilarr _ _ (mkArray [])); simpl; try done. rewrite lookup_app_r by lia. by rewrite Nat.sub_diag.
    + intros l ->%elem_of_list_singleton. simpl. lia.
  - (* array *)
    rewrite alloc_tree_arr in Hal. apply tsorted_arr in Hts.
    assert (∀ h0 h1 ops, alloc_list h0 l = (h1, ops) →
      stable h0 h1 noW ∧ ∃ fp, rep_list h1 ops l fp ∧ NoDup fp ∧ ∀ l, l ∈ fp → fresh h0 l) as Hl.
    { clear Hal h h' op. induction l as [|t l IHl]; intros h0 h1 ops Hal; simpl in Hal.
      { simplify_eq. split; [apply stable_refl|]. exists [].
        split; [constructor|]. split; [constructor|set_solver]. }
      inversion IH as [|? ? IHt IHl']; simplify_eq. inversion Hts as [|? ? Hs1 Hs2]; simplify_eq.
      destruct (alloc_tree h0 t) as [h2 op1] eqn:E1.
      destruct (alloc_list h2 l) as [h3 ops1] eqn:E2. simplify_eq.
      destruct (IHt _ _ _ Hs1 E1) as (St1 & fp1 & R1 & N1 & F1).
      destruct (IHl IHl' Hs2 _ _ _ E2) as (St2 & fp2 & R2 & N2 & F2).
      split; [by eapply stable_trans|]. exists (fp1 ++ fp2). split; [|split].
      - constructor; [|done]. eapply rep_frame; [done|done|]. auto.
      - apply NoDup_app. split; [done|]. split; [|done]. intros l0 H1 H2.
        eapply not_fresh_allocated; [by eapply rep_alloc|]. by apply F2.
      - intros l0 [Hl0|Hl0]%elem_of_app; [by apply F1|]. eapply fresh_mono; [done|]. by apply F2. }
    destruct (alloc_list h l) as [h1 ops] eqn:E. destruct (Hl _ _ _ E) as (St & fp & R & N & F).
    unfold alloc_some in Hal. simpl in Hal. simplify_eq. set (v := mkValue _ _ _ _ _ _ _ _ _).
    pose proof (stable_alloc_val h1 v noW) as St1. simpl in St1.
    split; [by eapply stable_trans|]. exists (LArr (length (hvals h1)) :: fp). split; [|split].
    + eapply (rep_arr _ _ v); try done.
      * simpl. rewrite lookup_app_r by lia. by rewrite Nat.sub_diag.
      * eapply rep_list_frame; [done|exact St1|]. auto.
    + apply NoDup_cons. split; [|done]. intros Hin.
      assert (allocated h1 (LArr (length (hvals h1)))) as Hx
        by (by eapply (proj1 (proj2 (rep_alloc_all h1)))). simpl in Hx. lia.
    + intros l0 [->|Hl0]%elem_of_cons; [|by apply F]. simpl. destruct St as (_ & _ & ? & _). lia.
  - (* nil object *)
    simpl in Hal. unfold alloc_some in Hal. simpl in Hal. simplify_eq.
    split; [apply (stable_alloc_val h)|]. exists [].
    split; [|split; [constructor|set_solver]].
    apply (rep_nilobj _ _ (mkObject None)); simpl; try done. rewrite lookup_app_r by lia. by rewrite Nat.sub_diag.
  - (* object *)
    rewrite alloc_tree_obj in Hal. apply tsorted_obj in Hts as [Hms Hts].
    assert (∀ h0 h1 gm, alloc_assoc h0 m = (h1, gm) →
      stable h0 h1 noW ∧ ∃ fp, rep_assoc h1 gm m fp ∧ NoDup fp ∧ ∀ l, l ∈ fp → fresh h0 l) as Hl.
    { clear Hal h h' op Hms. induction m as [|[k t] m IHl]; intros h0 h1 ops Hal; simpl in Hal.
      { simplify_eq. split; [apply stable_refl|]. exists [].
        split; [constructor|]. split; [constructor|set_solver]. }
      inversion IH as [|? ? IHt IHl']; simplify_eq. inversion Hts as [|? ? Hs1 Hs2]; simplify_eq.
      destruct (alloc_tree h0 t) as [h2 op1] eqn:E1.
      destruct (alloc_assoc h2 m) as [h3 ops1] eqn:E2. simplify_eq.
      destruct (IHt _ _ _ Hs1 E1) as (St1 & fp1 & R1 & N1 & F1).
      destruct (IHl IHl' Hs2 _ _ _ E2) as (St2 & fp2 & R2 & N2 & F2).
      split; [by eapply stable_trans|]. exists (fp1 ++ fp2). split; [|split].
      - constructor; [|done]. eapply rep_frame; [done|done|]. auto.
      - apply NoDup_app. split; [done|]. split; [|done]. intros l0 H1 H2.
        eapply not_fresh_allocated; [by eapply rep_alloc|]. by apply F2.
      - intros l0 [Hl0|Hl0]%elem_of_app; [by apply F1|]. eapply fresh_mono; [done|]. by apply F2. }
    destruct (alloc_assoc h m) as [h1 gm] eqn:E. destruct (Hl _ _ _ E) as (St & fp & R & N & F).
    unfold alloc_some in Hal. simpl in Hal. simplify_eq.
    set (h2 := mkHeap (hvals h1) (hmaps h1 ++ [gm])).
    assert (stable h1 h2 noW) as St2.
    { repeat split; simpl; rewrite ?app_length; try lia; auto.
      intros r g Hr. left. by apply lookup_app_l_Some. }
    pose proof (stable_alloc_val h2 (mkObject (Some (length (hmaps h1)))) noW) as St3. simpl in St3.
    assert (stable h1 (alloc_val h2 (mkObject (Some (length (hmaps h1))))).1 noW) as St4
      by (eapply stable_trans; done).
    split; [by eapply stable_trans|]. exists (LMap (length (hmaps h1)) :: fp). split; [|split].
    + apply (rep_obj _ _ (mkObject (Some (length (hmaps h1)))) _ gm); simpl; try done.
      * rewrite lookup_app_r by lia. by rewrite Nat.sub_diag.
      * rewrite lookup_app_r by apply Nat.le_refl. by rewrite Nat.sub_diag.
      * assert (mkeys m = mkeys gm) as Hkeys by (by eapply rep_assoc_keys).
        clear -Hms Hkeys. revert gm Hkeys. induction m as [|[k t] m IH]; intros [|[k' op] gm] Hk; simpl in *; try done.
        simplify_eq. destruct Hms as [HF Hs]. split; [|by apply IH].
        clear -HF H0. revert gm H0. induction m as [|[k t] m IH]; intros [|[k2 op] gm] Hk; simpl in *; try done.
        simplify_eq. inversion HF; simplify_eq. constructor; [done|]. by apply IH.
      * eapply rep_assoc_frame; [done|exact St4|]. auto.
    + apply NoDup_cons. split; [|done]. intros Hin.
      assert (allocated h1 (LMap (length (hmaps h1)))) as Hx
        by (by eapply rep_assoc_alloc). simpl in Hx. lia.
    + intros l0 [->|Hl0]%elem_of_cons; [|by apply F]. simpl. destruct St as (_ & _ & _ & ?). lia.
Qed.

(** ** Calls *)
Lemma ev_rep_alloc h e m fp l : ev_rep h e m fp → l ∈ fp → allocated h l.
Proof.
  unfold ev_rep. destruct (fields e) as [r|].
  - intros (gm & fps & Hr & _ & Ha & -> & _) [->|Hl]%elem_of_cons.
    + simpl. by eapply lookup_lt_Some.
    + by eapply rep_assoc_alloc.
  - intros [_ ->] Hl. by apply elem_of_nil in Hl.
Qed.

Lemma ev_rep_NoDup h e m fp : ev_rep h e m fp → NoDup fp.
Proof.
  unfold ev_rep. destruct (fields e) as [r|].
  - by intros (gm & fps & _ & _ & _ & -> & ?).
  - intros [_ ->]. constructor.
Qed.

Lemma ev_rep_frame h h' e m fp W :
  ev_rep h e m fp → stable h h' W → (∀ l, l ∈ fp → ¬ W l) → ev_rep h' e m fp.
Proof.
  unfold ev_rep. destruct (fields e) as [r|]; [|done].
  intros (gm & fps & Hr & Hs & Ha & -> & Hnd) Hst HW. exists gm, fps. split_and!; try done.
  - destruct Hst as (_ & G & _). destruct (G _ _ Hr) as [?|?]; [done|].
    exfalso. eapply HW; [|done]. set_solver.
  - eapply rep_assoc_frame; [done|done|]. set_solver.
Qed.

(** The event's own root object, as [Get] returns it for the empty path. *)
Lemma get_path_ref path h e m fp :
  ev_rep h e m fp →
  match tget path m with
  | Panic => get_path h e path = Panic
  | Ok None => get_path h e path = Ok (h, None)
  | Ok (Some t) => ∃ h' p fpt, get_path h e path = Ok (h', Some p) ∧ rep h' (Some p) t fpt ∧
                     sublist fpt fp ∧ stable h h' noW ∧ (path ≠ [] → h' = h) ∧
                     (path ≠ [] → ∃ r, fields e = Some r ∧ get_loop h (Some r) path = Ok (Some p))
  end.
Proof.
  unfold ev_rep, get_path. destruct (fields e) as [r|] eqn:Hf.
  - intros (gm & fps & Hr & Hs & Ha & -> & Hnd).
    rewrite (map_of_Some _ _ _ Hr).
    destruct path as [|k path].
    + cbn [tget]. destruct gm as [|e0 gm]; [by inversion Ha|].
      destruct m as [|e1 m]; [by inversion Ha|].
      cbn [alloc_val]. do 3 eexists. split; [done|]. split_and!; try done.
      * eapply (rep_obj _ _ (mkObject (Some r)) r (e0 :: gm)); simpl; try done.
        -- rewrite lookup_app_r by lia. by rewrite Nat.sub_diag.
        -- eapply rep_assoc_frame; [done|apply (stable_alloc_val h (mkObject (Some r)) noW)|]. auto.
      * apply (stable_alloc_val h).
    + destruct gm as [|e0 gm].
      { inversion Ha; subst. by rewrite tget_empty. }
      pose proof (get_loop_ref (k :: path) h r (e0 :: gm) m fps Hr Hs Ha ltac:(done)) as H.
      destruct (tget (k :: path) m) as [[t|]|].
      * destruct H as (p & fpt & Hg & Hrep & Hsub). rewrite Hg.
        exists h, p, fpt. split_and!; try done; [by apply sublist_cons|apply stable_refl|eauto].
      * by rewrite H.
      * by rewrite H.
  - intros [-> ->]. cbn [map_of]. destruct path as [|k path]; [done|]. by rewrite tget_empty.
Qed.

Lemma get_path_heap h e path h' op : path ≠ [] → get_path h e path = Ok (h', op) → h' = h.
Proof. unfold get_path. intros Hne H. repeat case_match; simplify_eq; done. Qed.

(** Put and TryPut of a value that shares nothing with the event. *)
Lemma put_ref h e m fp p tv fpv path ow :
  ev_rep h e m fp → rep h (Some p) tv fpv → NoDup (fp ++ fpv) →
  match spec_put ow path tv m with
  | Panic => put h e path (Some p) ow = Panic
  | Ok (m', res) =>
      ∃ pr fp', put h e path (Some p) ow = Ok pr ∧ put_err pr = s_err res ∧
        obs (put_heap pr) (put_old pr) (s_val res) ∧
        ev_rep (put_heap pr) (put_event pr) m' fp' ∧
        stable h (put_heap pr) (λ l, l ∈ fp) ∧
        (∀ l, l ∈ fp' → l ∈ fp ∨ l ∈ fpv ∨ fresh h l) ∧
        (put_err pr ≠ None → put_heap pr = h ∧ put_event pr = e) ∧
        (put_err pr = None →
           get_path (put_heap pr) (put_event pr) path = Ok (put_heap pr, Some p) ∧
           rep (put_heap pr) (Some p) tv fpv)
  end.
Proof.
  intros Hev Hv Hnd. unfold spec_put, put.
  destruct path as [|k path].
  { eexists _, fp. split; [done|]. simpl. split_and!; try done; [apply stable_refl|auto]. }
  assert (tv ≠ TNil) as Hnn by (by eapply rep_Some).
  assert (∀ A (x y : A), match tv with TNil => x | _ => y end = y) as -> by (by intros; destruct tv).
  (* the event after a possible creation of its map *)
  set (he := match fields e with None => _ | Some _ => _ end).
  assert (∃ h1 e1 fp1 r gm fps, he = (h1, e1) ∧ ev_rep h1 e1 m fp1 ∧ fields e1 = Some r ∧
     fp1 = LMap r :: fps ∧ hmaps h1 !! r = Some gm ∧ msorted gm ∧ rep_assoc h1 gm m fps ∧
     stable h h1 noW ∧ (∀ l, l ∈ fp1 → l ∈ fp ∨ fresh h l) ∧
     rep h1 (Some p) tv fpv ∧ NoDup (LMap r :: fps ++ fpv) ∧ (m ≠ [] → (h1, e1) = (h, e)))
    as (h1 & e1 & fp1 & r & gm & fps & Ehe & Hev1 & Hf1 & Hfp1 & Hr & Hs & Ha & Hst1 & Hin1 & Hv1 & Hnd1 & Hsame).
  { unfold he. unfold ev_rep in Hev. destruct (fields e) as [r|] eqn:Hf.
    - destruct Hev as (gm & fps & Hr & Hs & Ha & -> & Hnd0).
      exists h, e, (LMap r :: fps), r, gm, fps. split_and!; try done; [|apply stable_refl|auto].
      unfold ev_rep. rewrite Hf. eauto 10.
    - destruct Hev as [-> ->]. cbn [alloc_map].
      pose proof (stable_alloc_map h noW) as Hst. simpl in Hst.
      assert (hmaps (alloc_map h).1 !! length (hmaps h) = Some []) as Hr.
      { simpl. rewrite lookup_app_r by apply Nat.le_refl. by rewrite Nat.sub_diag. }
      do 3 eexists. exists (length (hmaps h)), [], []. split_and!; try done.
      + unfold ev_rep. simpl. exists [], []. split_and!; try done; [constructor|apply NoDup_singleton].
      + constructor.
      + intros l ->%elem_of_list_singleton. right. simpl. lia.
      + eapply rep_frame; [done|done|]. auto.
      + apply NoDup_cons. split; [|done]. simpl. intros Hl.
        eapply not_fresh_allocated; [by eapply rep_alloc|]. simpl. lia. }
  rewrite Ehe. clear Ehe he.
  pose proof (get_path_ref (k :: path) h1 e1 m fp1 Hev1) as Hget.
  destruct (tget (k :: path) m) as [old|] eqn:Etg; [|by rewrite Hget].
  assert (∃ old', get_path h1 e1 (k :: path) = Ok (h1, old') ∧ obs h1 old' old ∧
     (∀ q, old' = Some q → get_loop h1 (Some r) (k :: path) = Ok (Some q)))
    as (old' & Hg & Hobs & Hgl).
  { destruct old as [t|].
    - destruct Hget as (h' & q & fpt & Hg & Hrep & _ & _ & Hh & Hgl). rewrite Hh in * by done.
      exists (Some q). split_and!; [done|by exists q, fpt|].
      intros q' [= <-]. destruct (Hgl ltac:(done)) as (r' & ? & ?). congruence.
    - exists None. by rewrite Hget. }
  rewrite Hg.
  assert ((match old' with Some _ => true | None => false end) =
          (match old with Some _ => true | None => false end)) as ->.
  { destruct old; [by destruct Hobs as (? & ? & -> & _)|by rewrite Hobs]. }
  destruct ((match old with Some _ => true | None => false end) && negb ow) eqn:Eow.
  { eexists _, fp1. split; [done|]. simpl. split_and!; try done.
    - eapply stable_weaken; [done|]. naive_solver.
    - naive_solver.
    - intros _. destruct old as [t0|]; [|done].
      assert (m ≠ []) as Hm0 by (intros ->; by rewrite tget_empty in Etg).
      by injection (Hsame Hm0) as -> ->. }
  rewrite Hf1.
  pose proof (put_loop_ref (k :: path) (k :: path) h1 r gm m fps p tv fpv Hr Hs Ha ltac:(done) Hv1 Hnd1) as Hput.
  destruct (tput (k :: path) tv m) as [[m'|]|] eqn:Etp.
  - destruct Hput as (h' & gm' & fps' & Hput & Hr' & Hs' & Ha' & Hnd' & Hin & Hst & Hgp & Hvp & Hold).
    rewrite Hput. eexists _, (LMap r :: fps'). split; [done|]. cbn [put_err put_heap put_old put_event s_err s_val].
    split_and!; try done.
    + destruct old as [t|]; [|done]. destruct Hobs as (q & fpq & -> & Hq).
      exists q, fpq. split; [done|]. by apply (Hold q t fpq); [apply Hgl|].
    + unfold ev_rep. rewrite Hf1. eauto 10.
    + eapply stable_trans_fresh; [|exact Hst|].
      * eapply stable_weaken; [exact Hst1|]. naive_solver.
      * intros l Hl. apply Hin1. rewrite Hfp1. set_solver.
    + intros l [->|Hl]%elem_of_cons.
      * destruct (Hin1 (LMap r)) as [?|?]; [set_solver|auto|auto].
      * destruct (Hin _ Hl) as [?|[?|?]]; [|auto|].
        -- destruct (Hin1 l) as [?|?]; [set_solver|auto|auto].
        -- right; right. by eapply fresh_mono.
    + intros _. split; [|done]. unfold get_path. rewrite Hf1, (map_of_Some _ _ _ Hr').
      destruct gm' as [|e0 gm']; [|by rewrite Hgp].
      exfalso. rewrite (get_loop_empty _ _ _ Hr') in Hgp. done.
  - rewrite Hput. eexists _, fp1. split; [done|]. simpl. split_and!; try done.
    + eapply stable_weaken; [done|]. naive_solver.
    + naive_solver.
    + intros _. assert (m ≠ []) as Hm0.
      { intros ->. destruct (tput_nil_ok (k :: path) tv ltac:(done)) as [m' E']. congruence. }
      by injection (Hsame Hm0) as -> ->.
  - by rewrite Hput.
Qed.

Lemma NoDup_sublist {A} (l1 l2 : list A) : sublist l1 l2 → NoDup l2 → NoDup l1.
Proof.
  intros H. induction H as [|x l1 l2 H IH|x l1 l2 H IH]; intros Hn; [done| |];
    apply NoDup_cons in Hn as [Hx Hn].
  - apply NoDup_cons. split; [|by apply IH].
    intros Hl. apply Hx. eapply elem_of_submseteq; [done|]. by apply sublist_submseteq.
  - by apply IH.
Qed.

Lemma rep_assoc_split h gm m fps k op :
  rep_assoc h gm m fps → msorted gm → mget k gm = Some op →
  ∃ t fp rest, mget k m = Some t ∧ rep h op t fp ∧ fps ≡ₚ fp ++ rest ∧
    rep_assoc h (mdel k gm) (mdel k m) rest.
Proof.
  intros H. induction H as [|k' op0 gm t m fp fps Hr Ha IH]; [done|].
  intros [HF Hs] Hk. simpl in Hk |- *.
  destruct (String.eqb_spec k k') as [->|Hne].
  - simplify_eq. exists t, fp, fps. split_and!; try done.
    assert (∀ A (g : gomap A), mget k' g = None → mdel k' g = g) as Hdel.
    { clear. intros A g. induction g as [|[k v] g IH]; [done|]. simpl.
      case_match; [done|]. intros H1. by rewrite IH. }
    assert (mget k' gm = None) as Hn by (by apply mget_lt_None).
    rewrite !Hdel; [done| |done]. by eapply rep_assoc_None.
  - destruct (IH Hs Hk) as (t1 & fp1 & rest & Hm & Hrep & Hperm & Hrec).
    exists t1, fp1, (fp ++ rest). split_and!; try done.
    { rewrite Hperm. rewrite !(assoc_L (++)). by rewrite (comm (++) fp fp1). }
    by constructor.
Qed.

Lemma get_loop_head h r gm m fps k rest p :
  hmaps h !! r = Some gm → msorted gm → rep_assoc h gm m fps →
  get_loop h (Some r) (k :: rest) = Ok (Some p) →
  ∃ op, mget k gm = Some op ∧ ∀ tk fpk t fpt, rep h op tk fpk → rep h (Some p) t fpt → sublist fpt fpk.
Proof.
  intros Hr Hs Ha Hg. destruct rest as [|k2 rest].
  - cbn [get_loop] in Hg. rewrite (map_of_Some _ _ _ Hr) in Hg.
    destruct (mget k gm) as [op|]; simplify_eq. eexists. split; [done|].
    intros tk fpk t fpt H1 H2. by destruct (proj1 (rep_fun_all h) _ _ _ H1 _ _ H2) as [-> ->].
  - rewrite get_loop_cons, (map_of_Some _ _ _ Hr) in Hg.
    destruct (mget k gm) as [op|]; [|done]. eexists. split; [done|].
    intros tk fpk t fpt H1 H2. destruct op as [q|]; [|done]. cbn [deref] in Hg.
    destruct (hvals h !! q) as [v|] eqn:Hq; [|done].
    destruct (is_object_dec tk) as [[mi ->]|Hno].
    + inversion H1; simplify_eq.
      { match goal with H : scalar_tree _ = _ |- _ => by apply scalar_tree_scalar in H end. }
      match goal with H : v_obj _ = Some _, G : hmaps h !! ?ri = Some ?g, A : rep_assoc _ _ mi _,
        S : msorted ?g |- _ =>
        match g with gm => fail 1 | _ =>
        rewrite H, (map_of_Some _ _ _ G) in Hg;
        pose proof (get_loop_ref (k2 :: rest) h _ _ _ _ G S A ltac:(done)) as HL
        end end.
      match type of Hg with match ?g with _ => _ end = _ => destruct g; [done|] end.
      destruct (tget (k2 :: rest) mi) as [[t'|]|].
      * destruct HL as (p' & fp' & Hg' & Hrep' & Hsub). rewrite Hg in Hg'. simplify_eq.
        destruct (proj1 (rep_fun_all h) _ _ _ Hrep' _ _ H2) as [-> ->]. by apply sublist_cons.
      * congruence.
      * congruence.
    + rewrite (rep_not_object_map _ _ _ _ _ H1 Hq Hno) in Hg. done.
Qed.

Lemma delete_ref h e m fp path :
  ev_rep h e m fp →
  match spec_delete path m with
  | Panic => delete_path h e path = Panic
  | Ok (m', res) =>
      ∃ h' op fp', delete_path h e path = Ok (h', op) ∧ s_err res = None ∧
        ev_rep h' e m' fp' ∧ stable h h' (λ l, l ∈ fp) ∧
        match s_val res with
        | None => op = None ∧ h' = h ∧ fp' = fp
        | Some t => ∃ p fpt, op = Some p ∧ rep h' (Some p) t fpt ∧ NoDup (fp' ++ fpt) ∧
                      (∀ l, l ∈ fp' ++ fpt → l ∈ fp)
        end
  end.
Proof.
  intros Hev. unfold spec_delete, delete_path. destruct path as [|k path].
  { exists h, None, fp. split_and!; try done. apply stable_refl. }
  pose proof (get_path_ref (k :: path) h e m fp Hev) as Hget.
  unfold ev_rep in Hev. destruct (fields e) as [r|] eqn:Hf; cycle 1.
  { destruct Hev as [-> ->]. rewrite tget_empty. cbn [map_of].
    exists h, None, []. split_and!; try done; [|apply stable_refl].
    unfold ev_rep. by rewrite Hf. }
  destruct Hev as (gm & fps & Hr & Hs & Ha & -> & Hnd).
  rewrite (map_of_Some _ _ _ Hr).
  destruct gm as [|e0 gm].
  { inversion Ha; subst. rewrite tget_empty in *. exists h, None, [LMap r].
    split_and!; try done; [|apply stable_refl].
    unfold ev_rep. rewrite Hf. exists [], []. split_and!; try done. }
  destruct (tget (k :: path) m) as [[t|]|].
  - destruct Hget as (h1 & p & fpt & Hg & Hrep & Hsub & _ & Hh & Hgl).
    rewrite Hh in * by done. rewrite Hg.
    destruct (Hgl ltac:(done)) as (r' & [= <-] & Hgl').
    destruct (get_loop_head _ _ _ _ _ _ _ _ Hr Hs Ha Hgl') as (op & Hk & Hfpt).
    destruct (rep_assoc_split _ _ _ _ _ _ Ha Hs Hk) as (tk & fpk & rest & Hmk & Hrk & Hperm & Hdel).
    specialize (Hfpt _ _ _ _ Hrk Hrep).
    set (h' := map_delete h (Some r) k).
    assert (stable h h' (λ l, l = LMap r)) as Hst by (by apply stable_map_delete).
    apply NoDup_cons in Hnd as [Hrn Hnd]. rewrite Hperm in Hrn, Hnd.
    apply NoDup_app in Hnd as (N1 & N2 & N3).
    assert (∀ l, l ∈ fpt → l ∈ fpk) as Hin.
    { intros l Hl. eapply elem_of_submseteq; [done|]. by apply sublist_submseteq. }
    exists h', (Some p), (LMap r :: rest). split_and!; try done.
    + unfold ev_rep. rewrite Hf. exists (mdel k (e0 :: gm)), rest. split_and!; try done.
      * unfold h', map_delete. rewrite Hr. cbn [hmaps].
        rewrite list_lookup_insert; [done|]. by eapply lookup_lt_Some.
      * by apply msorted_mdel.
      * eapply rep_assoc_frame; [done|done|]. intros l Hl ->. apply Hrn. set_solver.
      * apply NoDup_cons. split; [set_solver|done].
    + eapply stable_weaken; [done|]. intros l ->. set_solver.
    + exists p, fpt. split_and!; try done.
      * eapply rep_frame; [done|done|]. intros l Hl ->. apply Hrn. set_solver.
      * simpl. apply NoDup_cons. split; [set_solver|]. apply NoDup_app. split_and!; try done.
        { intros l Hl Hl2. by apply (N2 l); [apply Hin|]. }
        by eapply NoDup_sublist.
      * intros l Hl. rewrite Hperm. set_solver.
  - rewrite Hget. exists h, None, (LMap r :: fps). split_and!; try done; [|apply stable_refl].
    unfold ev_rep. rewrite Hf. by exists (e0 :: gm), fps.
  - by rewrite Hget.
Qed.
