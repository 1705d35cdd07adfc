(** * Programs on many events: proofs. *)
From Verif Require Export Session.
From Verif Require Import PipeSem PipelineRun Isolation.
From Coq Require Import Lia.

(** ** Building *)
Section build.
  Context (null : ptr).
  Fixpoint build_list (h : heap) (l : list tree) : heap * list (option ptr) :=
    match l with
    | [] => (h, [])
    | t :: l' => let '(h1, op) := build null h t in let '(h2, ops) := build_list h1 l' in (h2, op :: ops)
    end.
  Fixpoint build_assoc (h : heap) (m : gomap tree) : heap * gomap (option ptr) :=
    match m with
    | [] => (h, [])
    | (k, t) :: m' => let '(h1, op) := build null h t in let '(h2, gm) := build_assoc h1 m' in (h2, (k, op) :: gm)
    end.
  Lemma build_arr h l : build null h (TArr l) =
    let '(h1, ops) := build_list h l in alloc_some h1 (mkValue 0 0 0 0 "" (Some ops) None false ArrayType).
  Proof. reflexivity. Qed.
  Lemma build_obj h m : build null h (TObj m) =
    let '(h1, gm) := build_assoc h m in let '(h2, r) := alloc_map_with h1 gm in alloc_some h2 (mkObject (Some r)).
  Proof. reflexivity. Qed.

  Lemma null_stable h h' W : stable h h' W → hvals h !! null = Some mkNull → hvals h' !! null = Some mkNull.
  Proof. intros (H & _) Hn. destruct (H _ _ Hn) as [?|[_ ?]]; done. Qed.

  Lemma build_rep t : ∀ h h' op, hvals h !! null = Some mkNull → tsorted t → build null h t = (h', op) →
    stable h h' noW ∧ ∃ fp, rep h' op t fp ∧ NoDup fp ∧ ∀ l, l ∈ fp → EventRefine.fresh h l.
  Proof.
    induction t as [| | | | | | | | |l IH| |m IH] using tree_ind'; intros h h' op Hnull Hts Hal;
      try (by eapply alloc_scalar; [exact Hal|done]).
    - simpl in Hal. simplify_eq. split; [apply stable_refl|].
      exists []. split; [constructor|]. split; [constructor|intros l Hl; by apply elem_of_nil in Hl].
    - (* null *)
      simpl in Hal. simplify_eq. split; [apply stable_refl|]. exists []. split; [by eapply rep_scalar|].
      split; [constructor|intros l Hl; by apply elem_of_nil in Hl].
    - (* nil array *)
      simpl in Hal. unfold alloc_some in Hal. simpl in Hal. simplify_eq.
      split; [apply (stable_alloc_val h)|]. exists [LArr (length (hvals h))].
      split; [|split; [apply NoDup_singleton|]].
      + apply (rep_nilarr _ _ (mkArray [])); simpl; try done. rewrite lookup_app_r by lia. by rewrite Nat.sub_diag.
      + intros l ->%elem_of_list_singleton. simpl. lia.
    - (* array *)
      rewrite build_arr in Hal. apply tsorted_arr in Hts.
      assert (∀ h0 h1 ops, hvals h0 !! null = Some mkNull → build_list h0 l = (h1, ops) →
        stable h0 h1 noW ∧ ∃ fp, rep_list h1 ops l fp ∧ NoDup fp ∧ ∀ l, l ∈ fp → EventRefine.fresh h0 l) as Hl.
      { clear Hal h h' op Hnull. induction l as [|t l IHl]; intros h0 h1 ops Hnull Hal; simpl in Hal.
        { simplify_eq. split; [apply stable_refl|]. exists [].
          split; [constructor|]. split; [constructor|intros l Hl; by apply elem_of_nil in Hl]. }
        inversion IH as [|? ? IHt IHl']; simplify_eq. inversion Hts as [|? ? Hs1 Hs2]; simplify_eq.
        destruct (build null h0 t) as [h2 op1] eqn:E1.
        destruct (build_list h2 l) as [h3 ops1] eqn:E2. simplify_eq.
        destruct (IHt _ _ _ Hnull Hs1 E1) as (St1 & fp1 & R1 & N1 & F1).
        destruct (IHl IHl' Hs2 _ _ _ (null_stable _ _ _ St1 Hnull) E2) as (St2 & fp2 & R2 & N2 & F2).
        split; [by eapply stable_trans|]. exists (fp1 ++ fp2). split; [|split].
        - constructor; [|done]. eapply rep_frame; [done|done|]. auto.
        - apply NoDup_app. split; [done|]. split; [|done]. intros l0 H1 H2.
          eapply not_fresh_allocated; [by eapply rep_alloc|]. by apply F2.
        - intros l0 [Hl0|Hl0]%elem_of_app; [by apply F1|]. eapply fresh_mono; [done|]. by apply F2. }
      destruct (build_list h l) as [h1 ops] eqn:E. destruct (Hl _ _ _ Hnull E) as (St & fp & R & N & F).
      unfold alloc_some in Hal. simpl in Hal. simplify_eq. set (v := mkValue _ _ _ _ _ _ _ _ _).
      pose proof (stable_alloc_val h1 v noW) as St1. simpl in St1.
      split; [by eapply stable_trans|]. exists (LArr (length (hvals h1)) :: fp). split; [|split].
      + eapply (rep_arr _ _ v); try done.
        * simpl. rewrite lookup_app_r by lia. by rewrite Nat.sub_diag.
        * eapply rep_list_frame; [done|exact St1|]. auto.
      + apply NoDup_cons. split; [|done]. intros Hin.
        assert (allocated h1 (LArr (length (hvals h1)))) as Hx
          by (by eapply (proj1 (proj2 (rep_alloc_all h1)))). simpl in Hx. lia.
      + intros l0 [->|Hl0]%elem_of_cons; [|by apply F]. simpl. destruct St as (_ & _ & ? & _). lia.
    - (* nil object *)
      simpl in Hal. unfold alloc_some in Hal. simpl in Hal. simplify_eq.
      split; [apply (stable_alloc_val h)|]. exists [].
      split; [|split; [constructor|intros l Hl; by apply elem_of_nil in Hl]].
      apply (rep_nilobj _ _ (mkObject None)); simpl; try done. rewrite lookup_app_r by lia. by rewrite Nat.sub_diag.
    - (* object *)
      rewrite build_obj in Hal. apply tsorted_obj in Hts as [Hms Hts].
      assert (∀ h0 h1 gm, hvals h0 !! null = Some mkNull → build_assoc h0 m = (h1, gm) →
        stable h0 h1 noW ∧ ∃ fp, rep_assoc h1 gm m fp ∧ NoDup fp ∧ ∀ l, l ∈ fp → EventRefine.fresh h0 l) as Hl.
      { clear Hal h h' op Hms Hnull. induction m as [|[k t] m IHl]; intros h0 h1 ops Hnull Hal; simpl in Hal.
        { simplify_eq. split; [apply stable_refl|]. exists [].
          split; [constructor|]. split; [constructor|intros l Hl; by apply elem_of_nil in Hl]. }
        inversion IH as [|? ? IHt IHl']; simplify_eq. inversion Hts as [|? ? Hs1 Hs2]; simplify_eq.
        destruct (build null h0 t) as [h2 op1] eqn:E1.
        destruct (build_assoc h2 m) as [h3 ops1] eqn:E2. simplify_eq.
        destruct (IHt _ _ _ Hnull Hs1 E1) as (St1 & fp1 & R1 & N1 & F1).
        destruct (IHl IHl' Hs2 _ _ _ (null_stable _ _ _ St1 Hnull) E2) as (St2 & fp2 & R2 & N2 & F2).
        split; [by eapply stable_trans|]. exists (fp1 ++ fp2). split; [|split].
        - constructor; [|done]. eapply rep_frame; [done|done|]. auto.
        - apply NoDup_app. split; [done|]. split; [|done]. intros l0 H1 H2.
          eapply not_fresh_allocated; [by eapply rep_alloc|]. by apply F2.
        - intros l0 [Hl0|Hl0]%elem_of_app; [by apply F1|]. eapply fresh_mono; [done|]. by apply F2. }
      destruct (build_assoc h m) as [h1 gm] eqn:E. destruct (Hl _ _ _ Hnull E) as (St & fp & R & N & F).
      unfold alloc_some in Hal. simpl in Hal. simplify_eq.
      set (h2 := mkHeap (hvals h1) (hmaps h1 ++ [gm])).
      assert (stable h1 h2 noW) as St2.
      { repeat split; simpl; rewrite ?app_length; try lia; auto.
        intros r g Hr. left. by apply lookup_app_l_Some. }
      pose proof (stable_alloc_val h2 (mkObject (Some (length (hmaps h1)))) noW) as St3. simpl in St3.
      assert (stable h1 (alloc_val h2 (mkObject (Some (length (hmaps h1))))).1 noW) as St4
        by (eapply stable_trans; done).
      split; [by eapply stable_trans|]. exists (LMap (length (hmaps h1)) :: fp). split; [|split].
      + apply (rep_obj _ _ (mkObject (Some (length (hmaps h1)))) _ gm); simpl; try done.
        * rewrite lookup_app_r by lia. by rewrite Nat.sub_diag.
        * rewrite lookup_app_r by apply Nat.le_refl. by rewrite Nat.sub_diag.
        * assert (mkeys m = mkeys gm) as Hkeys by (by eapply rep_assoc_keys).
          clear -Hms Hkeys. revert gm Hkeys. induction m as [|[k t] m IH]; intros [|[k' op] gm] Hk; simpl in *; try done.
          simplify_eq. destruct Hms as [HF Hs]. split; [|by apply IH].
          clear -HF H0. revert gm H0. induction m as [|[k t] m IH]; intros [|[k2 op] gm] Hk; simpl in *; try done.
          simplify_eq. inversion HF; simplify_eq. constructor; [done|]. by apply IH.
        * eapply rep_assoc_frame; [done|exact St4|]. auto.
      + apply NoDup_cons. split; [|done]. intros Hin.
        assert (allocated h1 (LMap (length (hmaps h1)))) as Hx
          by (by eapply rep_assoc_alloc). simpl in Hx. lia.
      + intros l0 [->|Hl0]%elem_of_cons; [|by apply F]. simpl. destruct St as (_ & _ & _ & ?). lia.
  Qed.
End build.

(** ** One call on one event *)
Lemma stable_stays h h' : stable h h' noW → stays h h'.
Proof. intros (H & _) p v Hp. exists v. split; [|by left]. by destruct (H _ _ Hp) as [?|[[] _]]. Qed.
Lemma grow_goes w i e G names h extra new : w_events w !! i = Some e → state (w_heap w) e G names → stable (w_heap w) h noW →
  NoDup extra → (∀ l, l ∈ extra → EventRefine.fresh (w_heap w) l) → Forall2 (box_at h (names ++ extra)) extra new →
  goes w (set_heap w h) i e e names (names ++ extra) (mkGraph (g_boxes G ++ new) (g_root G)).
Proof.
  intros Hi Hs Hst Hnd Hfr Hb. pose proof (stable_stays _ _ Hst) as Hsy. pose proof (state_frame _ _ _ _ _ Hs Hsy Hst) as [Hp' Hr'].
  destruct Hs as [Hp Hr]. unfold goes. cbn [set_heap w_heap w_events w_env w_log]. split_and!; try done.
  - split.
    + cbn [g_boxes]. apply (pic_grow h); [done|apply stays_refl| |by intros []|done]. apply NoDup_app. split_and!; [apply Hp| |done].
      intros l Hl Hx. apply (pic_allocated _ _ _ _ Hp) in Hl. apply Hfr in Hx. by apply not_fresh_allocated in Hl.
    + unfold root_ok in *. cbn [g_root]. destruct (g_root G) as [m|].
      * destruct Hr' as (r & H1 & H2). exists r. split; [done|]. by apply lookup_app_l_Some.
      * destruct Hr' as [?|(r & H1 & H2 & H3)]; [by left|]. right. exists r. split; [done|]. split; [done|].
        intros [?|Hx]%elem_of_app; [done|]. apply Hfr in Hx. destruct Hr as [?|(r' & H1' & H2' & _)]; [congruence|].
        assert (r' = r) as -> by congruence. apply lookup_lt_Some in H2'. simpl in Hx. lia.
  - by eexists.
  - eapply stable_weaken; [exact Hst|done].
  - intros l [Hl|Hl]; [|left; by right]. apply elem_of_app in Hl as [Hl|Hl]; [left; by left|]. right. by apply Hfr.
Qed.
Lemma plant_goes null w i e G names t h op : hvals (w_heap w) !! null = Some mkNull → tsorted t →
  w_events w !! i = Some e → state (w_heap w) e G names → build null (w_heap w) t = (h, op) →
  ∃ fp, goes w (set_heap w h) i e e names (names ++ fp) (gplant t G).1 ∧ item_at h (names ++ fp) op (gplant t G).2.
Proof.
  intros Hn Ht Hi Hs Hb. destruct (build_rep _ _ _ _ _ Hn Ht Hb) as (Hst & fp & Hr & Hnd & Hfr).
  destruct (proj1 (plant_rep h) _ _ _ Hr (names ++ fp) names []) as [H1 H2]; [by rewrite app_nil_r|].
  exists fp. pose proof Hs as [Hp _]. unfold gplant. cbn [fst snd]. rewrite (pic_length _ _ _ Hp). split; [|done]. by apply grow_goes.
Qed.

Lemma put_cases h e path p ow : path ≠ [] →
  match get_path h e path with
  | Panic => put h e path (Some p) ow = Panic
  | Ok (h', old) => h' = h ∧
      match old, ow with
      | Some _, false => put h e path (Some p) ow = Ok (mkPut h e old (Some (err_exists path)))
      | _, _ => put h e path (Some p) ow = put h e path (Some p) true ∧
          ∀ pr, put h e path (Some p) true = Ok pr → put_old pr = match put_err pr with None => old | Some _ => None end
      end
  end.
Proof.
  intros Hne. destruct path as [|k path]; [done|]. cbn [put]. destruct (fields e) as [r|] eqn:Ef.
  - unfold get_path. rewrite Ef. destruct (map_of h (Some r)) as [|a l]; cbn [andb negb].
    + split; [done|]. split; [by destruct ow|]. intros pr. destruct (put_loop _ _ _ _ _) as [[h3 [err|]]|]; intros; by simplify_eq.
    + destruct (get_loop h (Some r) (k :: path)) as [op|]; [|done]. split; [done|].
      destruct op as [q|], ow; cbn [andb negb]; try done; (split; [done|]); intros pr; destruct (put_loop _ _ _ _ _) as [[h3 [err|]]|]; intros; by simplify_eq.
  - unfold get_path. rewrite Ef. cbn [map_of alloc_map fields hmaps]. rewrite lookup_app_r, Nat.sub_diag by done. cbn [lookup list_lookup andb negb].
    split; [done|]. split; [by destruct ow|]. intros pr. destruct (put_loop _ _ _ _ _) as [[h3 [err|]]|]; intros; by simplify_eq.
Qed.

Definition answers (w' : world) (names' : list loc) (op : option ptr) (o : option item) : Prop :=
  match o with None => op = None | Some x => op ≠ None ∧ item_at (w_heap w') names' op x end.
Lemma gput_goes ow w i e G names key op x : w_events w !! i = Some e → state (w_heap w) e G names → item_at (w_heap w) names op x →
  match gput ow key x G with
  | Shares => False
  | Crashes => put (w_heap w) e (keyToPath key) op ow = Panic
  | Gives (G', (o, err)) => ∃ w' e' names' a, end_put w i (put (w_heap w) e (keyToPath key) op ow) = Ok (w', a) ∧
      a_heap a = w_heap w' ∧ a_err a = err ∧ goes w w' i e e' names names' G' ∧ answers w' names' (a_val a) o
  end.
Proof.
  intros Hi Hs Hx. unfold gput. rewrite <- keyToPath_spec. destruct (decide (keyToPath key = [])) as [E|E].
  { rewrite E. cbn [put end_put put_heap put_event put_old put_err]. rewrite list_insert_id by done. eexists w, e, names, _.
    split_and!; [by destruct w|done|done|by apply goes_refl|done]. }
  assert (op = None ↔ x = IPlain TNil) as Hnil.
  { inversion Hx as [|? v t Hv Ht| | |]; subst; try done. split; [done|]. intros [= ->]. by apply scalar_tree_scalar in Ht. }
  destruct op as [p|].
  2:{ rewrite (proj1 Hnil eq_refl). destruct (keyToPath key) as [|k path]; [done|]. cbn [put end_put put_heap put_event put_old put_err].
      rewrite list_insert_id by done. eexists w, e, names, _. split_and!; [by destruct w|done|done|by apply goes_refl|done]. }
  assert (∀ A (a b : A), match x with IPlain TNil => a | _ => b end = b) as Hx'.
  { intros A a b. destruct x as [[]| |]; try done. discriminate (proj2 Hnil eq_refl). }
  rewrite Hx'. clear Hx' Hnil. pose proof (gread_ref _ _ _ _ key Hs) as Hg. unfold Get in Hg.
  pose proof (put_cases (w_heap w) e (keyToPath key) p ow E) as Hc.
  destruct (gread key G) as [old| |]; [|by rewrite Hg in Hc|done]. destruct Hg as (h' & op & Eg & _ & _ & Hop).
  rewrite Eg in Hc. destruct Hc as [-> Hc]. cbn [vbind].
  assert (match op, ow with Some _, false => False | _, _ => True end →
    match vbind (gstore key x G) (λ '(G', err), Gives (G', (match err with None => old | Some _ => None end, err))) with
    | Shares => False
    | Crashes => put (w_heap w) e (keyToPath key) (Some p) ow = Panic
    | Gives (G', (o, err)) => ∃ w' e' names' a, end_put w i (put (w_heap w) e (keyToPath key) (Some p) ow) = Ok (w', a) ∧
        a_heap a = w_heap w' ∧ a_err a = err ∧ goes w w' i e e' names names' G' ∧ answers w' names' (a_val a) o
    end) as Hstore.
  { intros Hov. assert (put (w_heap w) e (keyToPath key) (Some p) ow = put (w_heap w) e (keyToPath key) (Some p) true ∧
      ∀ pr, put (w_heap w) e (keyToPath key) (Some p) true = Ok pr → put_old pr = match put_err pr with None => op | Some _ => None end) as [-> Hold]
      by (by destruct op, ow).
    pose proof (gstore_ref _ _ _ _ key p x Hs Hx) as H. unfold Put in H. destruct (gstore key x G) as [[G' err]| |]; cbn [vbind]; [|done|done].
    destruct H as (pr & extra & Ep & <- & Hs' & Hst & Hsb & Hown). specialize (Hold _ Ep). rewrite Ep. cbn [end_put].
    eexists _, (put_event pr), (names ++ extra), _. split; [reflexivity|]. cbn [a_heap a_err a_val w_heap]. split; [done|]. split; [done|].
    assert (i < length (w_events w)) as Hlt by (by eapply lookup_lt_Some).
    split.
    - unfold goes. cbn [w_heap w_events w_env w_log]. split_and!; try done.
      + by rewrite list_lookup_insert.
      + by eexists.
      + intros j Hj. by rewrite list_lookup_insert_ne.
      + by rewrite insert_length.
    - rewrite Hold. unfold answers. cbn [w_heap]. destruct (put_err pr); [done|]. destruct old as [y|]; [|done].
      destruct Hop as [? Hop]. split; [done|]. eapply item_at_mono; [exact Hst|by eexists|done]. }
  destruct old as [y|].
  - destruct Hop as [Hn Hop]. destruct op as [q|]; [|done]. destruct ow; [by apply Hstore|]. rewrite Hc. cbn [end_put put_heap put_event put_old put_err].
    rewrite list_insert_id by done. eexists w, e, names, _. split_and!; [by destruct w|done|done|by apply goes_refl|]. done.
  - subst op. destruct ow; by apply Hstore.
Qed.

Lemma entries_del h names gm m k : Forall2 (entry_at h names) gm m → Forall2 (entry_at h names) (mdel k gm) (mdel k m).
Proof.
  induction 1 as [|[k1 op] [k2 x] gm m [E H] _ IH]; [constructor|]. simpl in *. subst k2. destruct (String.eqb k k1); [done|]. by constructor.
Qed.
Lemma gdelete_goes w i e G names key : w_events w !! i = Some e → state (w_heap w) e G names →
  match gdelete key G with
  | Shares => False
  | Crashes => EvDelete (w_heap w) e key = Panic
  | Gives (G', o) => ∃ h op, EvDelete (w_heap w) e key = Ok (h, op) ∧ goes w (set_heap w h) i e e names names G' ∧ answers (set_heap w h) names op o
  end.
Proof.
  intros Hi Hs. unfold gdelete, EvDelete. rewrite <- keyToPath_spec. pose proof (goes_refl _ _ _ _ _ Hi Hs) as Hrefl.
  assert (set_heap w (w_heap w) = w) as Hw by (by destruct w).
  assert (∀ o, (∀ x, o = Some x → False) → ∃ h op, Ok (w_heap w, None) = Ok (h, op) ∧ goes w (set_heap w h) i e e names names G ∧ answers (set_heap w h) names op o) as Hno.
  { intros o Ho. exists (w_heap w), None. rewrite Hw. split_and!; [done|done|]. destruct o as [x|]; [by destruct (Ho x)|done]. }
  destruct (keyToPath key) as [|k path] eqn:Ek; [by apply Hno|]. cbn [delete_path].
  pose proof (state_map_empty _ _ _ _ Hs) as Hemp. destruct (g_root G) as [n|] eqn:Er.
  2:{ rewrite (proj2 Hemp I). by apply Hno. }
  pose proof (gread_ref _ _ _ _ key Hs) as Hg. unfold Get in Hg. rewrite Ek in Hg.
  destruct (map_of (w_heap w) (fields e)) as [|a l] eqn:Em.
  { unfold gread. rewrite Er, decide_True by (by apply Hemp). by apply Hno. }
  destruct (gread key G) as [o| |]; [|by rewrite Hg|done]. destruct Hg as (h' & op & Eg & Hst & Hsb & Hop). cbn [vbind]. rewrite Eg.
  assert (h' = w_heap w) as ->. { unfold get_path in Eg. rewrite Em in Eg. destruct (get_loop _ _ _); by simplify_eq. }
  destruct o as [x|]; [|subst op; by apply Hno]. destruct Hop as [Hne Hop]. destruct op as [p|]; [|done].
  destruct Hs as [Hp Hr]. pose proof Hr as Hr0. unfold root_ok in Hr. rewrite Er in Hr. destruct Hr as (r & Hf & Hn).
  destruct (pic_map _ _ _ _ _ Hp Hn) as (gm & Hgm & Hso & Hb & Hm). rewrite Hf. cbn [map_delete]. rewrite Hgm.
  eexists _, _. split; [reflexivity|]. set (h2 := mkHeap (hvals (w_heap w)) (<[r:=mdel k gm]> (hmaps (w_heap w)))).
  assert (stays (w_heap w) h2) as Hst2 by (by apply stays_vals).
  split; [|split; [done|]; by eapply item_at_mono].
  unfold goes. cbn [set_heap w_heap w_events w_env w_log]. split_and!; try done.
  - split.
    + cbn [g_boxes]. rewrite <- (app_nil_r (<[n:=_]> _)). eapply (pic_update _ _ names names []); try done.
      * by rewrite app_nil_r.
      * apply Hp.
      * intros [r'|p'] Hl Hne'; simpl; [|done]. rewrite list_lookup_insert_ne; [done|]. intros ->. by apply Hne'.
      * eapply ba_obj; [apply list_lookup_insert; by eapply lookup_lt_Some|by apply msorted_mdel|].
        apply entries_del. by eapply entries_mono.
    + unfold root_ok. cbn [g_root]. by exists r.
  - pose proof (stable_map_delete (w_heap w) r k (own e names)) as H. cbn [map_delete] in H. rewrite Hgm in H. apply H. right. by exists r.
  - by left.
Qed.

(** eventutil/event.go:37-53, the end of Append. *)
Definition extend_finish (key : string) (item : option ptr) (t : ptr) : prog (option goerr) :=
  PLoad item (λ x,
    PLoad (Some t) (λ a,
      let added := if N.eqb (v_type x) ArrayType then arr_of x else [item] in
      let arr := match added with [] => v_arr a | _ => Some (arr_of a ++ added) end in
      PStore (Some t) (with_arr a arr) (PPut key (Some t) (λ _ err, Ret err)))).
Lemma pic_elems h names bs p n v : pic h names bs → names !! n = Some (LArr p) → hvals h !! p = Some v →
  Forall2 (item_at h names) (arr_of v) (elems bs n).
Proof.
  intros Hp Hn Hv. destruct (pic_lookup _ _ _ _ _ Hp Hn) as (b & Hb & Hat). unfold elems, arr_of. rewrite Hb.
  inversion Hat as [? v2 Hv2 Ht2 Ho2 Ha2|? v2 ops xs Hv2 Ht2 Ho2 Ha2 Hxs|]; subst; assert (v2 = v) as -> by congruence; rewrite Ha2; [constructor|done].
Qed.
Lemma extend_goes w pe i e G names key q x p n : w_events w !! i = Some e → state (w_heap w) e G names →
  item_at (w_heap w) names (Some q) x → item_at (w_heap w) names (Some p) (IArr n) →
  ∃ w', run_prog (extend_finish key (Some q) p) w pe = run_prog (PPut key (Some p) (λ _ err, Ret err)) w' pe ∧
    goes w w' i e e names names (gextend n x G).
Proof.
  intros Hi Hs Hx Ha. unfold extend_finish. inversion Ha as [| | |? v ? Hv Ht Ho Hl|]; subst.
  assert (∃ xv, hvals (w_heap w) !! q = Some xv) as [xv Hxv] by (inversion Hx; subst; eauto).
  rewrite (load_run _ _ _ _ _ Hxv), (load_run _ _ _ _ _ Hv). cbv zeta. destruct Hs as [Hp Hr].
  set (ops := if N.eqb (v_type xv) ArrayType then arr_of xv else [Some q]).
  set (added := match x with IArr m => elems (g_boxes G) m | _ => [x] end).
  assert (Forall2 (item_at (w_heap w) names) ops added) as Hadd.
  { unfold ops, added. inversion Hx as [|? v' t Hv' Ht'|? v' Hv' Ht' Ho'|? v' m Hv' Ht' Ho' Hl'|? v' r m Hv' Ht' Ho' Hl']; subst; assert (v' = xv) as -> by congruence.
    - rewrite (proj2 (N.eqb_neq _ _) (scalar_tree_not_array _ _ Ht')). by repeat constructor.
    - rewrite Ht'. by repeat constructor.
    - rewrite Ht', N.eqb_refl. by eapply pic_elems.
    - rewrite Ht'. by repeat constructor. }
  clearbody ops. cbn [run_prog]. rewrite decide_True by (by eapply lookup_lt_Some).
  eexists. split; [reflexivity|]. unfold gextend. fold added. clearbody added.
  destruct Hadd as [|op1 x1 ops added H1 Hadd].
  { assert (with_arr v (v_arr v) = v) as -> by (by destruct v). apply goes_heap; [done|by split| |]; unfold set_val; rewrite list_insert_id by done; destruct (w_heap w);
      [apply stays_refl|apply stable_refl]. }
  assert (Forall2 (item_at (w_heap w) names) (op1 :: ops) (x1 :: added)) as Hadd' by (by constructor). clear H1 Hadd.
  revert Hadd'. generalize (op1 :: ops). generalize (x1 :: added). clear ops added op1 x1. intros added ops Hadd.
  set (v' := with_arr v (Some (arr_of v ++ ops))).
  assert (stays (w_heap w) (set_val (w_heap w) p v')) as Hst.
  { intros q' u Hq'. cbn [set_val hvals]. destruct (decide (q' = p)) as [->|Hne].
    - exists v'. rewrite list_lookup_insert by (by eapply lookup_lt_Some). split; [done|]. assert (u = v) as -> by congruence. by right.
    - exists u. rewrite list_lookup_insert_ne by done. auto. }
  unfold goes. cbn [set_heap w_heap w_events w_env w_log]. split_and!; try done.
  - split.
    + cbn [g_boxes]. rewrite <- (app_nil_r (<[n:=_]> _)). eapply (pic_update _ _ names names []); try done.
      * by rewrite app_nil_r.
      * apply Hp.
      * intros [r'|q'] Hl' Hne; simpl; [done|]. rewrite list_lookup_insert_ne; [done|]. intros ->. by apply Hne.
      * eapply (ba_arr _ _ _ v'); [apply list_lookup_insert; by eapply lookup_lt_Some|done|done|reflexivity|].
        apply Forall2_app; (eapply items_mono; [exact Hst|done|]); [|done]. by eapply pic_elems.
    + unfold root_ok in *. cbn [g_root set_val hmaps]. done.
  - eapply stable_set_val; [exact Hv|done|]. left. by eapply elem_of_list_lookup_2.
  - by left.
Qed.
Lemma new_array_goes w i e G names v new : w_events w !! i = Some e → state (w_heap w) e G names → v_type v = ArrayType → v_obj v = None →
  match v_arr v, new with None, None => True | Some ops, Some xs => Forall2 (item_at (w_heap w) names) ops xs | _, _ => False end →
  let h := (alloc_val (w_heap w) v).1 in let q := length (hvals (w_heap w)) in
  goes w (set_heap w h) i e e names (names ++ [LArr q]) (grow (BxArr new) G).1 ∧ item_at h (names ++ [LArr q]) (Some q) (IArr (grow (BxArr new) G).2).
Proof.
  intros Hi Hs Ht Ho Ha h q. assert (hvals h !! q = Some v) as Hq. { unfold h, q. cbn. rewrite lookup_app_r by done. by rewrite Nat.sub_diag. }
  pose proof (stable_alloc_val (w_heap w) v noW) as Hst. fold h in Hst. pose proof Hs as [Hp _]. split.
  - unfold grow. cbn [fst]. apply grow_goes; try done; [apply NoDup_singleton|intros l ->%elem_of_list_singleton; simpl; done|].
    apply Forall2_cons. split; [|constructor]. destruct (v_arr v) as [ops|] eqn:Ev, new as [xs|]; try done.
    + eapply ba_arr; try done. eapply items_mono; [by apply stable_stays|by eexists|done].
    + by eapply ba_nilarr.
  - unfold grow. cbn [snd]. eapply ia_arr; try done. rewrite (pic_length _ _ _ Hp), lookup_app_r by done. by rewrite Nat.sub_diag.
Qed.
Lemma gappend_goes w pe i e G names key op x : pe_data pe = Some i → w_events w !! i = Some e → state (w_heap w) e G names →
  item_at (w_heap w) names op x →
  match gappend key x G with
  | Shares => False
  | Crashes => run_prog (eventutil_append key op) w pe = Panic
  | Gives (G', err) => ∃ w' e' names', run_prog (eventutil_append key op) w pe = Ok (w', pe, err) ∧ goes w w' i e e' names names' G'
  end.
Proof.
  intros Hpe Hi Hs Hx. unfold gappend.
  assert (op = None ↔ x = IPlain TNil) as Hnil.
  { inversion Hx as [|? v t Hv Ht| | |]; subst; try done. split; [done|]. intros [= ->]. by apply scalar_tree_scalar in Ht. }
  destruct op as [q|].
  2:{ rewrite (proj1 Hnil eq_refl). exists w, e, names. split; [done|]. by apply goes_refl. }
  assert (∀ A (a b : A), match x with IPlain TNil => a | _ => b end = b) as Hx'.
  { intros A a b. destruct x as [[]| |]; try done. discriminate (proj2 Hnil eq_refl). }
  rewrite Hx'. clear Hx' Hnil.
  change (eventutil_append key (Some q)) with (PGet key (λ v, match v with
    | None => PNew (mkArray []) (extend_finish key (Some q))
    | Some t => PLoad v (λ y, if negb (N.eqb (v_type y) ArrayType) then PNew (mkArray [v]) (extend_finish key (Some q)) else extend_finish key (Some q) t)
    end)).
  match goal with |- context [PGet key ?k] => pose proof (get_goes w pe i e G names key k Hpe Hi Hs) as H; set (kk := k) in * end.
  destruct (gread key G) as [o| |]; [|exact H|done]. destruct H as (w1 & op & E & Hg & Ho). cbn [vbind]. pose proof Hg as (_ & Hi1 & Hs1 & _).
  pose proof (goes_item _ _ _ _ _ _ _ _ _ _ Hg Hx) as Hx1.
  assert (∀ w2 names2 G2 p n, run_prog (PGet key kk) w pe = run_prog (extend_finish key (Some q) p) w2 pe → goes w1 w2 i e e names names2 G2 →
    item_at (w_heap w2) names2 (Some p) (IArr n) →
    match gstore key (IArr n) (gextend n x G2) with
    | Shares => False
    | Crashes => run_prog (PGet key kk) w pe = Panic
    | Gives (G', err) => ∃ w' e' names', run_prog (PGet key kk) w pe = Ok (w', pe, err) ∧ goes w w' i e e' names names' G'
    end) as Hend.
  { intros w2 names2 G2 p n E2 Hg2 Hp2. pose proof Hg2 as (_ & Hi2 & Hs2 & _). pose proof (goes_item _ _ _ _ _ _ _ _ _ _ Hg2 Hx1) as Hx2.
    destruct (extend_goes w2 pe i e G2 names2 key q x p n Hi2 Hs2 Hx2 Hp2) as (w3 & E3 & Hg3). pose proof Hg3 as (_ & Hi3 & Hs3 & _).
    pose proof (goes_item _ _ _ _ _ _ _ _ _ _ Hg3 Hp2) as Hp3.
    pose proof (put_goes w3 pe i e _ names2 key p (IArr n) (λ _ err, Ret err) Hpe Hi3 Hs3 Hp3) as H. rewrite E2, E3.
    destruct (gstore key (IArr n) (gextend n x G2)) as [[G' err]| |]; [|done|done]. destruct H as (w4 & e4 & names4 & old & -> & Hg4).
    exists w4, e4, names4. split; [done|]. eapply goes_trans; [exact Hg|]. eapply goes_trans; [exact Hg2|]. by eapply goes_trans. }
  assert (∀ v new, v_type v = ArrayType → v_obj v = None →
    match v_arr v, new with None, None => True | Some ops, Some xs => Forall2 (item_at (w_heap w1) names) ops xs | _, _ => False end →
    run_prog (PGet key kk) w pe = run_prog (PNew v (extend_finish key (Some q))) w1 pe →
    match (let '(G1, n) := grow (BxArr new) G in gstore key (IArr n) (gextend n x G1)) with
    | Shares => False
    | Crashes => run_prog (PGet key kk) w pe = Panic
    | Gives (G', err) => ∃ w' e' names', run_prog (PGet key kk) w pe = Ok (w', pe, err) ∧ goes w w' i e e' names names' G'
    end) as Hnew.
  { intros v new Ht Hob Ha En. destruct (new_array_goes w1 i e G names v new Hi1 Hs1 Ht Hob Ha) as [H1 H2]. cbv zeta in H1, H2.
    destruct (grow (BxArr new) G) as [G1 n]. cbn [fst snd] in *. eapply Hend; [rewrite En; reflexivity|exact H1|exact H2]. }
  destruct o as [y|].
  - destruct Ho as (p & -> & Hy). unfold kk in E at 2.
    assert (∃ yv, hvals (w_heap w1) !! p = Some yv ∧ (v_type yv = ArrayType ↔ ∃ n, y = IArr n)) as (yv & Hyv & Hty).
    { inversion Hy as [|? v' t Hv' Ht'|? v' Hv' Ht' Ho'|? v' m Hv' Ht' Ho' Hl'|? v' r m Hv' Ht' Ho' Hl']; subst; exists v'; (split; [done|]).
      - split; [intros H; by apply scalar_tree_not_array in Ht'|by intros [? ?]].
      - rewrite Ht'. split; [done|by intros [? ?]].
      - rewrite Ht'. split; [by eexists|done].
      - rewrite Ht'. split; [done|by intros [? ?]]. }
    rewrite (load_run _ _ _ _ _ Hyv) in E. destruct (N.eqb_spec (v_type yv) ArrayType) as [Et|Et]; cbn [negb] in E.
    + destruct (proj1 Hty Et) as [n ->]. by eapply Hend; [exact E|apply goes_refl|].
    + assert (∀ A (f : nat → A) (b : A), match y with IArr n => f n | _ => b end = b) as Hy'.
      { intros A f b. destruct y as [| n|]; try done. destruct Et. apply Hty. by eexists. }
      rewrite Hy'. eapply (Hnew (mkArray [Some p]) (Some [y])); [done|done|by repeat constructor|exact E].
  - subst op. unfold kk in E at 2. by eapply (Hnew (mkArray []) None).
Qed.

(** ** Any call *)
(** What a returned value shows: all of it, and, since it may contain itself, what is seen
    of it up to any depth. *)
Fixpoint gview (n : nat) (bs : list box) (x : item) : tree :=
  match n with
  | O => TNil
  | S n' =>
      match x with
      | IPlain t => t
      | IArr k => match bs !! k with Some (BxArr (Some xs)) => TArr (map (gview n' bs) xs) | Some (BxArr None) => TNilArr | _ => TNil end
      | IObj k => match bs !! k with Some (BxObj m) => TObj (map (λ kv, (kv.1, gview n' bs kv.2)) m) | _ => TNil end
      end
  end.
Lemma view_entries n h names bs gm m : (∀ op x, item_at h names op x → view n h op = gview n bs x) → Forall2 (entry_at h names) gm m →
  map (λ kv, (kv.1, view n h kv.2)) gm = map (λ kv, (kv.1, gview n bs kv.2)) m.
Proof. intros IH H. induction H as [|[k op] [k' x] gm m [E Hx] _ IHm]; [done|]. cbn in *. subst. f_equal; [f_equal; by apply IH|done]. Qed.
Lemma view_gview h names bs n : pic h names bs → ∀ op x, item_at h names op x → view n h op = gview n bs x.
Proof.
  intros [_ Hp]. induction n as [|n IH]; intros op x Hx; [done|]. inversion Hx as [|p v t Hv Ht|p v Hv Ht Ho|p v k Hv Ht Ho Hk|p v r k Hv Ht Ho Hk]; subst; cbn [view gview].
  - done.
  - rewrite Hv. pose proof (scalar_tree_not_array _ _ Ht) as Ha. destruct (N.eqb_spec (v_type v) ArrayType) as [|_]; [done|].
    destruct (N.eqb_spec (v_type v) ObjectType) as [E|_]; [|by rewrite Ht].
    exfalso. unfold scalar_tree in Ht. rewrite E in Ht. by destruct (v_obj v).
  - rewrite Hv, Ht, Ho. done.
  - rewrite Hv, Ht. cbn [N.eqb]. destruct (Forall2_lookup_l _ _ _ _ _ Hp Hk) as (b & Hb & Hbox). rewrite Hb.
    inversion Hbox as [p' v' Hv' _ _ Ha|p' v' ops xs Hv' _ _ Ha Hxs|]; subst; rewrite Hv in Hv'; injection Hv' as <-; rewrite Ha; [done|].
    cbn. f_equal. clear -IH Hxs. induction Hxs as [|op x ops xs Hox _ IHl]; [done|]. cbn. f_equal; [by apply IH|done].
  - rewrite Hv, Ht, Ho. destruct (Forall2_lookup_l _ _ _ _ _ Hp Hk) as (b & Hb & Hbox). rewrite Hb.
    inversion Hbox as [| |r' gm m Hgm _ Hm]; subst. cbn [map_of]. rewrite Hgm. cbn. f_equal. by eapply view_entries.
Qed.
Definition gevent_view (n : nat) (G : graph) : gomap tree :=
  match g_root G with None => [] | Some r => map (λ kv, (kv.1, gview n (g_boxes G) kv.2)) (entries (g_boxes G) r) end.
Lemma event_gview w i G fp n : drawn w i G fp → event_view n w i = Some (gevent_view n G).
Proof.
  intros (e & names & Hi & [Hp Hr] & _). unfold event_view. rewrite Hi. f_equal. unfold gevent_view. unfold root_ok in Hr.
  destruct (g_root G) as [k|].
  - destruct Hr as (r & -> & Hk). pose proof Hp as [_ Hp2]. destruct (Forall2_lookup_l _ _ _ _ _ Hp2 Hk) as (b & Hb & Hbox). inversion Hbox as [| |r' gm m Hgm _ Hm]; subst.
    unfold entries. rewrite Hb. cbn [map_of]. rewrite Hgm. eapply view_entries; [|exact Hm]. intros. by eapply view_gview.
  - destruct Hr as [->|(r & -> & Hg & _)]; [done|]. cbn [map_of]. by rewrite Hg.
Qed.
Definition tells (h : heap) (G : graph) (op : option ptr) (o : option item) : Prop :=
  match o with
  | None => op = None
  | Some x => op ≠ None ∧ (∀ t, unfolds (g_boxes G) x t ↔ ∃ fp, rep h op t fp) ∧ ∀ n, view n h op = gview n (g_boxes G) x
  end.
Lemma answers_tells w e G names op o : state (w_heap w) e G names → answers w names op o → tells (w_heap w) G op o.
Proof.
  intros [Hp _] H. destruct o as [x|]; [|done]. destruct H as [Hn Hx]. split; [done|]. split; [|intros n; by eapply view_gview]. intros t. split.
  - intros Hu. by eapply unfolds_rep.
  - intros [fp Hr]. by eapply (proj1 (rep_unfolds _ _ _ Hp)).
Qed.
Definition call_sorted (c : call) : Prop :=
  match c with DoPut _ t | DoTryPut _ t | DoAppend _ t => tsorted t | _ => True end.
Definition ends (r : Outcome (world * answer)) (w : world) (i : nat) (fp : list loc) (v : verdict (graph * (option item * option goerr))) : Prop :=
  match v with
  | Shares => False
  | Crashes => r = Panic
  | Gives (G', (o, err)) => ∃ w' a, r = Ok (w', a) ∧ gmoves drawn w w' i fp G' ∧
      a_err a = err ∧ a_heap a = w_heap w' ∧ tells (w_heap w') G' (a_val a) o
  end.
Lemma call_ends null pls bs w i c G fp : hvals (w_heap w) !! null = Some mkNull → call_sorted c → Forall2 (pipe_as (w_heap w)) bs pls →
  drawn w i G fp → ends (do_call null pls w i c) w i fp (gcall bs c G).
Proof.
  intros Hnull Hc Hpl (e & names & Hi & Hs & Hfp).
  assert (∀ w' e' names' G' a o err, goes w w' i e e' names names' G' → a_err a = err → a_heap a = w_heap w' → answers w' names' (a_val a) o →
    ends (Ok (w', a)) w i fp (Gives (G', (o, err)))) as Hend.
  { intros w' e' names' G' a o err Hg Ha1 Ha2 Ha3. exists w', a. split; [done|]. split; [by eapply goes_moves|].
    split_and!; [done|done|]. destruct Hg as (_ & _ & Hs' & _). by eapply answers_tells. }
  assert (∀ ow key w1 G1 names1 op x, goes w w1 i e e names names1 G1 → item_at (w_heap w1) names1 op x →
    ends (end_put w i (put (w_heap w1) e (keyToPath key) op ow)) w i fp (gput ow key x G1)) as Hput.
  { intros ow key w1 G1 names1 op x Hg Hx. pose proof Hg as (_ & Hi1 & Hs1 & _ & _ & _ & _ & Hj & Hl & Hen & Hlg).
    pose proof (gput_goes ow w1 i e G1 names1 key op x Hi1 Hs1 Hx) as H.
    assert (end_put w1 i (put (w_heap w1) e (keyToPath key) op ow) = end_put w i (put (w_heap w1) e (keyToPath key) op ow)) as Ee.
    { unfold end_put. destruct (put _ _ _ _ _); [|done]. rewrite Hen, Hlg. do 3 f_equal. f_equal. apply list_eq. intros j. destruct (decide (j = i)) as [->|Hne]; [congruence|by apply Hj]. }
    rewrite Ee in H. destruct (gput ow key x G1) as [[G' [o err]]| |]; [|by rewrite H|done].
    destruct H as (w' & e' & names' & a & -> & Ha1 & Ha2 & Hg2 & Ha3). eapply (Hend w'); [by eapply goes_trans|done|done|done]. }
  unfold do_call. rewrite Hi. destruct c as [key t|key t|key|key|from to|from to|key t|n]; cbn [gcall].
  - destruct (build null (w_heap w) t) as [h op] eqn:Eb. destruct (plant_goes _ _ _ _ _ _ _ _ _ Hnull Hc Hi Hs Eb) as (fp' & Hg & Hx).
    destruct (gplant t G) as [G1 x]. cbn [fst snd] in *. by apply (Hput true key (set_heap w h) G1 (names ++ fp') op x).
  - destruct (build null (w_heap w) t) as [h op] eqn:Eb. destruct (plant_goes _ _ _ _ _ _ _ _ _ Hnull Hc Hi Hs Eb) as (fp' & Hg & Hx).
    destruct (gplant t G) as [G1 x]. cbn [fst snd] in *. by apply (Hput false key (set_heap w h) G1 (names ++ fp') op x).
  - pose proof (gread_ref _ _ _ _ key Hs) as H. destruct (gread key G) as [o| |]; cbn [vbind]; [|by rewrite H|done].
    destruct H as (h' & op & -> & Hst & Hsb & Ho). eapply (Hend (set_heap w h') e names); [by apply goes_heap|done|done|done].
  - pose proof (gdelete_goes w i e G names key Hi Hs) as H. destruct (gdelete key G) as [[G' o]| |]; cbn [vbind]; [|by rewrite H|done].
    destruct H as (h' & op & -> & Hg & Ho). eapply (Hend (set_heap w h') e names); [done|done|done|done].
  - pose proof (gread_ref _ _ _ _ from Hs) as H. destruct (gread from G) as [o| |]; cbn [vbind]; [|by rewrite H|done].
    destruct H as (h' & op & -> & Hst & Hsb & Ho). apply (Hput true to (set_heap w h') G names op); [by apply goes_heap|].
    destruct o as [x|]; [by destruct Ho|]. subst op. constructor.
  - pose proof (gdelete_goes w i e G names from Hi Hs) as H. destruct (gdelete from G) as [[G' o]| |]; cbn [vbind]; [|by rewrite H|done].
    destruct H as (h' & op & -> & Hg & Ho). apply (Hput true to (set_heap w h') G' names op); [done|].
    destruct o as [x|]; [by destruct Ho|]. unfold answers in Ho. subst op. constructor.
  - destruct (build null (w_heap w) t) as [h op] eqn:Eb. destruct (plant_goes _ _ _ _ _ _ _ _ _ Hnull Hc Hi Hs Eb) as (fp' & Hg & Hx).
    destruct (gplant t G) as [G1 x]. cbn [fst snd] in *. pose proof Hg as (_ & Hi1 & Hs1 & _).
    pose proof (gappend_goes (set_heap w h) (mkPEvent (Some i) false false) i e G1 _ key op x eq_refl Hi1 Hs1 Hx) as H.
    destruct (gappend key x G1) as [[G' err]| |]; cbn [vbind]; [|by rewrite H|done]. destruct H as (w' & e' & names' & -> & Hg').
    eapply (Hend w' e' names'); [by eapply goes_trans|done|done|done].
  - destruct (pls !! n) as [pl|] eqn:En.
    2:{ assert (bs !! n = None) as ->; [|done]. apply lookup_ge_None. apply lookup_ge_None in En. by rewrite (Forall2_length _ _ _ Hpl). }
    destruct (Forall2_lookup_r _ _ _ _ _ Hpl En) as (b & -> & Hb).
    pose proof (pipe_gsem b pl w (mkPEvent (Some i) false false) i G fp Hb eq_refl eq_refl) as H. unfold Process. pose proof (gsem_pipe_shares b G) as Hns.
    destruct (gsem_pipe b G) as [[[G' err] lg]| |]; cbn [grun_to vbind] in H |- *; [|by rewrite H; [|by exists e, names]|done].
    destruct H as (w' & -> & Hm & _); [by exists e, names|].
    destruct err as [err|].
    + exists w', (mkAns (w_heap w') None (Some err)). split_and!; done.
    + exists w', (mkAns (w_heap w') None None). split_and!; done.
Qed.

(** ** Any number of events *)
Definition events_apart (w : world) (Gs : list graph) : Prop :=
  length Gs = length (w_events w) ∧ ∃ F : nat → list loc,
    (∀ i G, Gs !! i = Some G → drawn w i G (F i)) ∧
    (∀ i j l, i ≠ j → l ∈ F i → l ∉ F j) ∧ (∀ i l, l ∈ F i → ¬ EventRefine.fresh (w_heap w) l).
Definition ready (null : ptr) (pls : list pipeline) (bs : list bpipe) (h : heap) : Prop :=
  hvals h !! null = Some mkNull ∧ Forall2 (pipe_as h) bs pls.
Lemma ready_stable null pls bs h h' W : ready null pls bs h → stable h h' W → ready null pls bs h'.
Proof.
  intros [H1 H2] Hst. split; [by eapply null_stable|]. eapply Forall2_impl; [exact H2|]. intros b pl Hb.
  eapply pipe_as_mono; [|exact Hb]. intros p t Hh. by eapply holds_stable.
Qed.
Lemma drawn_shrink w i G fp : drawn w i G fp → ∃ fp0, (∀ l, l ∈ fp0 → l ∈ fp) ∧ (∀ l, l ∈ fp0 → ¬ EventRefine.fresh (w_heap w) l) ∧ drawn w i G fp0.
Proof. intros H. destruct (drawn_alloc _ _ _ _ H) as (fp0 & H1 & H2). exists fp0. split_and!; [intros l Hl; by apply H1|intros l Hl; by apply H1|done]. Qed.
Lemma apart_step w w' i Gs G G' : events_apart w Gs → Gs !! i = Some G → (∀ fp, drawn w i G fp → gmoves drawn w w' i fp G') → events_apart w' (<[i := G']> Gs).
Proof.
  intros (Hl & F & HF & Hd & Hf) Hi H. destruct (H _ (HF _ _ Hi)) as ((fp1 & Hd1 & Hfp1) & Hst & Hj & Hlen & _).
  destruct (drawn_shrink _ _ _ _ Hd1) as (fp2 & Hsub & Hf2 & Hd2).
  split; [by rewrite insert_length, Hlen|]. exists (λ j, if decide (j = i) then fp2 else F j). split_and!.
  - intros j Gj HGj. destruct (decide (j = i)) as [->|Hne].
    + rewrite list_lookup_insert in HGj by (by eapply lookup_lt_Some). by simplify_eq.
    + rewrite list_lookup_insert_ne in HGj by done. eapply drawn_frame; [by apply HF|by apply Hj|exact Hst|].
      intros l Hlj Hli. by apply (Hd j i l).
  - assert (∀ j l, j ≠ i → l ∈ fp2 → l ∉ F j) as Hx.
    { intros j l Hne Hl2 Hlj. destruct (Hfp1 _ (Hsub _ Hl2)) as [Hi'|Hfr]; [by apply (Hd j i l)|by apply (Hf j l)]. }
    intros j k l Hne. destruct (decide (j = i)) as [->|Hj1], (decide (k = i)) as [->|Hk1]; try done.
    + intros Hl2. by apply Hx.
    + intros Hlj Hl2. by apply (Hx j l).
    + by apply Hd.
  - intros j l. destruct (decide (j = i)) as [->|Hne]; [by apply Hf2|]. intros Hlj Hfr. apply (Hf j l Hlj). by eapply fresh_back.
Qed.
Definition reply (a : answer) (g : graph * (option item * option goerr)) : Prop :=
  let '(G, (o, err)) := g in a_err a = err ∧ tells (a_heap a) G (a_val a) o.
Lemma calls_end null pls bs cs : ∀ w Gs, ready null pls bs (w_heap w) → Forall (λ c, call_sorted c.2) cs → events_apart w Gs →
  match gcalls bs Gs cs with
  | Shares => False
  | Crashes => do_calls null pls w cs = Panic
  | Gives (Gs', l) => ∃ w' l', do_calls null pls w cs = Ok (w', l') ∧ ready null pls bs (w_heap w') ∧ events_apart w' Gs' ∧
      Forall2 (λ a g, a.1 = g.1 ∧ reply a.2 g.2) l' l
  end.
Proof.
  induction cs as [|[i c] cs IH]; intros w Gs Hr Hs Ha; cbn [gcalls do_calls].
  { exists w, []. split_and!; try done. }
  apply Forall_cons in Hs as [Hc Hs]. cbn [snd] in Hc. pose proof Ha as (Hlen & F & HF & _).
  destruct (Gs !! i) as [G|] eqn:Ei.
  2:{ unfold do_call. assert (w_events w !! i = None) as ->; [|done]. apply lookup_ge_None. apply lookup_ge_None in Ei. lia. }
  assert (∀ fp, drawn w i G fp → ends (do_call null pls w i c) w i fp (gcall bs c G)) as He by (intros; apply call_ends; [apply Hr|done|apply Hr|done]).
  pose proof (He _ (HF _ _ Ei)) as H1. unfold ends in H1. destruct (gcall bs c G) as [[G' [o err]]| |] eqn:Eg; cbn [vbind]; [|by rewrite H1|done].
  destruct H1 as (w1 & a & E1 & Hm & Ha1 & Ha2 & Ha3). rewrite E1.
  assert (events_apart w1 (<[i := G']> Gs)) as Hap.
  { eapply apart_step; [done|done|]. intros fp Hfp. pose proof (He _ Hfp) as Hx. unfold ends in Hx. rewrite E1 in Hx.
    destruct Hx as (w1' & a' & E1' & Hm' & _). injection E1' as <- <-. exact Hm'. }
  assert (ready null pls bs (w_heap w1)) as Hr1. { destruct Hm as (_ & Hst & _). by eapply ready_stable. }
  specialize (IH w1 _ Hr1 Hs Hap). destruct (gcalls bs (<[i := G']> Gs) cs) as [[Gs' l]| |]; cbn [vbind]; [|by rewrite IH|done].
  destruct IH as (w' & l' & -> & Hr' & Ha' & Hl). exists w', ((i, a) :: l'). split_and!; try done. apply Forall2_cons. split; [|done].
  split; [done|]. cbn. split; [done|]. by rewrite Ha2.
Qed.

(** ** Each by itself *)
Definition only {A} (i : nat) (cs : list (nat * A)) : list (nat * A) := filter (λ c, c.1 = i) cs.
Lemma gcalls_only bs i cs : ∀ Gs Hs Gs' l, gcalls bs Gs cs = Gives (Gs', l) → Gs !! i = Hs !! i →
  ∃ Hs', gcalls bs Hs (only i cs) = Gives (Hs', only i l) ∧ Gs' !! i = Hs' !! i.
Proof.
  induction cs as [|[j c] cs IH]; intros Gs Hs Gs' l H E; cbn [gcalls] in H; [simplify_eq; by exists Hs|].
  destruct (Gs !! j) as [G|] eqn:Ej; [|done]. destruct (gcall bs c G) as [[G' a]| |] eqn:Ec; cbn [vbind] in H; [|done|done].
  destruct (gcalls bs (<[j := G']> Gs) cs) as [[Gs1 l1]| |] eqn:Er; cbn [vbind] in H; [|done|done]. simplify_eq.
  unfold only. rewrite !filter_cons. cbn [fst]. destruct (decide (j = i)) as [->|Hne].
  - cbn [gcalls]. rewrite <- E, Ej, Ec. cbn [vbind].
    destruct (IH _ (<[i := G']> Hs) _ _ Er) as (Hs' & H1 & H2).
    { rewrite !list_lookup_insert; [done| |by eapply lookup_lt_Some]. rewrite E in Ej. by eapply lookup_lt_Some. }
    unfold only in H1. rewrite H1. cbn [vbind]. by exists Hs'.
  - by apply (IH (<[j := G']> Gs) Hs); [|rewrite list_lookup_insert_ne by done].
Qed.
Lemma gcalls_in bs cs : ∀ Gs Gs' l c, gcalls bs Gs cs = Gives (Gs', l) → c ∈ cs → c.1 < length Gs.
Proof.
  induction cs as [|[j x] cs IH]; intros Gs Gs' l c H Hc; cbn [gcalls] in H; [by apply elem_of_nil in Hc|].
  destruct (Gs !! j) as [G|] eqn:Ej; [|done]. destruct (gcall bs x G) as [[G' a]| |]; cbn [vbind] in H; [|done|done].
  destruct (gcalls bs (<[j := G']> Gs) cs) as [[Gs1 l1]| |] eqn:Er; cbn [vbind] in H; [|done|done].
  apply elem_of_cons in Hc as [->|Hc]; [by eapply lookup_lt_Some|]. rewrite <- (insert_length Gs j G'). by eapply IH.
Qed.
Lemma gcalls_all bs cs : ∀ Gs, (∀ c, c ∈ cs → c.1 < length Gs) → (∀ i, i < length Gs → ∃ Hs l, gcalls bs Gs (only i cs) = Gives (Hs, l)) →
  ∃ Gs' l, gcalls bs Gs cs = Gives (Gs', l).
Proof.
  induction cs as [|[j c] cs IH]; intros Gs Hin H; cbn [gcalls]; [by eexists _, _|].
  assert (j < length Gs) as Hj by (apply (Hin (j, c)); apply elem_of_cons; by left). destruct (lookup_lt_is_Some_2 _ _ Hj) as [G Ej]. rewrite Ej.
  destruct (H j Hj) as (Hs & l & Hjr). unfold only in Hjr. rewrite filter_cons, decide_True in Hjr by done. cbn [gcalls] in Hjr. rewrite Ej in Hjr.
  destruct (gcall bs c G) as [[G' a]| |]; cbn [vbind] in Hjr |- *; [|done|done].
  destruct (IH (<[j := G']> Gs)) as (Gs' & l' & ->); [| |by eexists _, _].
  - intros c' Hc'. rewrite insert_length. apply Hin. apply elem_of_cons. by right.
  - intros i. rewrite insert_length. intros Hi. unfold only. destruct (decide (i = j)) as [->|Hne].
    + destruct (gcalls bs (<[j:=G']> Gs) (filter (λ c0, c0.1 = j) cs)) as [[Hs1 l1]| |]; [by eexists _, _|done|done].
    + destruct (H i Hi) as (Hs2 & l2 & Hir). unfold only in Hir. rewrite filter_cons, decide_False in Hir by (cbn; congruence).
      (* the calls for i do not look at graph j *)
      destruct (gcalls_only bs i (filter (λ c0, c0.1 = i) cs) Gs (<[j:=G']> Gs) _ _ Hir) as (Hs3 & H3 & _); [by rewrite list_lookup_insert_ne|].
      assert (only i (filter (λ c0 : nat * call, c0.1 = i) cs) = filter (λ c0, c0.1 = i) cs) as E3.
      { unfold only. rewrite list_filter_filter. apply list_filter_iff. intros x. tauto. }
      rewrite E3 in H3. by eexists _, _.
Qed.

(** ** Where a program starts *)
Lemma apart_new w : Forall (λ e, e = newEvent) (w_events w) → events_apart w (replicate (length (w_events w)) (mkGraph [] None)).
Proof.
  intros H. split; [by rewrite replicate_length|]. exists (λ _, []). split_and!.
  - intros i G HG. apply lookup_replicate in HG as [-> Hi]. destruct (lookup_lt_is_Some_2 _ _ Hi) as [e He].
    rewrite Forall_lookup in H. pose proof (H _ _ He) as ->. apply (showing_drawn w i [] []). exists newEvent. by split.
  - intros i j l _ Hl. by apply elem_of_nil in Hl.
  - intros i l Hl. by apply elem_of_nil in Hl.
Qed.
Lemma apart_showing w (ms : list (gomap tree)) (F : nat → list loc) : length ms = length (w_events w) →
  (∀ i m, ms !! i = Some m → showing w i m (F i)) → (∀ i j l, i ≠ j → l ∈ F i → l ∉ F j) → events_apart w (map planted ms).
Proof.
  intros Hl HF Hd. split; [by rewrite map_length|]. exists (λ i, if decide (i < length ms) then F i else []). split_and!.
  - intros i G HG. rewrite list_lookup_fmap in HG. destruct (ms !! i) as [m|] eqn:E; [|done]. cbn in HG. simplify_eq.
    rewrite decide_True by (by eapply lookup_lt_Some). by apply showing_drawn, HF.
  - intros i j l Hne. destruct (decide (i < length ms)), (decide (j < length ms)); intros H1 H2; try (by apply elem_of_nil in H1); try (by apply elem_of_nil in H2).
    by apply (Hd i j l).
  - intros i l. destruct (decide (i < length ms)) as [Hi|]; intros Hin; [|by apply elem_of_nil in Hin].
    destruct (lookup_lt_is_Some_2 _ _ Hi) as [m Hm]. destruct (HF _ _ Hm) as (e & _ & He). unfold ev_rep in He.
    destruct (fields e) as [r|]; [|by destruct He as [_ E]; rewrite E in Hin; apply elem_of_nil in Hin].
    destruct He as (gm & fps & Hg & _ & Hr & E & _). rewrite E in Hin. apply elem_of_cons in Hin as [->|Hin].
    + simpl. apply lookup_lt_Some in Hg. lia.
    + apply not_fresh_allocated. by eapply (proj2 (proj2 (rep_alloc_all _))).
Qed.

(** ** The shared null stays null *)
Lemma build_vals null t : ∀ h, vals_kept h (build null h t).1.
Proof.
  induction t as [| | | | | | | | |l IH| |m IH] using tree_ind'; intros h p v Hp;
    try (simpl; by apply lookup_app_l_Some); [done|done| |].
  - rewrite build_arr.
    assert (∀ h, hvals h !! p = Some v → hvals (build_list null h l).1 !! p = Some v) as Hl.
    { clear -IH. induction l as [|t l IHl]; intros h Hp; simpl; [done|].
      apply Forall_cons in IH as [Ht IH]. specialize (Ht h p v Hp). destruct (build null h t) as [h1 o]. simpl in Ht.
      specialize (IHl IH h1 Ht). by destruct (build_list null h1 l). }
    specialize (Hl h Hp). destruct (build_list null h l) as [h1 ops]. simpl in *. by apply lookup_app_l_Some.
  - rewrite build_obj.
    assert (∀ h, hvals h !! p = Some v → hvals (build_assoc null h m).1 !! p = Some v) as Hl.
    { clear -IH. induction m as [|[k t] m IHl]; intros h Hp; simpl; [done|].
      apply Forall_cons in IH as [Ht IH]. specialize (Ht h p v Hp). simpl in Ht.
      destruct (build null h t) as [h1 o]. simpl in Ht.
      specialize (IHl IH h1 Ht). by destruct (build_assoc null h1 m). }
    specialize (Hl h Hp). destruct (build_assoc null h m) as [h1 ops]. simpl in *. by apply lookup_app_l_Some.
Qed.
Lemma extend_keeps key q p : ∀ w pe w' pe' a, (∀ v, hvals (w_heap w) !! p = Some v → v_type v = ArrayType) →
  run_prog (extend_finish key (Some q) p) w pe = Ok (w', pe', a) → plain_kept w w'.
Proof.
  intros w pe w' pe' a Hty H. unfold extend_finish in H. cbn [run_prog deref] in H.
  destruct (hvals (w_heap w) !! q) as [x|] eqn:Eq; [|done]. cbn [run_prog deref] in H.
  destruct (hvals (w_heap w) !! p) as [y|] eqn:Ep; [|done]. cbn [run_prog] in H.
  destruct (decide _) as [Hlt|]; [|done].
  destruct (evt_of _ pe) as [[i e]|]; [|done].
  destruct (Put _ e _ _) as [r|] eqn:Er; [|done]. injection H as <- <- <-. apply put_vals in Er.
  intros k v Hk Hpl. cbn. apply Er. cbn. destruct (decide (k = p)) as [->|Hne].
  - destruct Hpl as [Hx _]. rewrite Hk in Ep. injection Ep as <-. by destruct (Hx (Hty _ eq_refl)).
  - by rewrite list_lookup_insert_ne.
Qed.
Lemma new_keeps key q v : v_type v = ArrayType → ∀ w pe w' pe' a,
  run_prog (PNew v (extend_finish key (Some q))) w pe = Ok (w', pe', a) → plain_kept w w'.
Proof.
  intros Ht w pe w' pe' a H. cbn [run_prog] in H. destruct (alloc_val (w_heap w) v) as [h1 p] eqn:Ea. unfold alloc_val in Ea. injection Ea as <- <-.
  apply extend_keeps in H.
  - intros k x Hk Hpl. apply H; [|done]. cbn. by apply lookup_app_l_Some.
  - intros x. cbn. rewrite lookup_app_r, Nat.sub_diag by apply Nat.le_refl. by intros [= <-].
Qed.
Lemma append_keeps key op : keeps_plain (eventutil_append key op).
Proof.
  intros w pe w' pe' a H. destruct op as [q|]; [|cbn in H; simplify_eq; apply plain_kept_refl].
  change (eventutil_append key (Some q)) with (PGet key (λ v, match v with
    | None => PNew (mkArray []) (extend_finish key (Some q))
    | Some t => PLoad v (λ y, if negb (N.eqb (v_type y) ArrayType) then PNew (mkArray [v]) (extend_finish key (Some q)) else extend_finish key (Some q) t)
    end)) in H.
  cbn [run_prog] in H. destruct (evt_of w pe) as [[i e]|]; [|done]. destruct (Get _ e _) as [[h o]|] eqn:Eg; [|done]. apply get_path_vals in Eg.
  eapply (plain_kept_trans _ (set_heap w h)); [intros p v Hp _; by apply Eg|].
  destruct o as [t|]; [|by eapply new_keeps in H].
  cbn [run_prog deref] in H. change (w_heap (set_heap w h)) with h in H. destruct (hvals h !! t) as [y|] eqn:Et; [|done].
  destruct (N.eqb_spec (v_type y) ArrayType) as [Hy|Hy]; cbn [negb] in H; [|by eapply new_keeps in H].
  eapply extend_keeps; [|exact H]. intros v. cbn. rewrite Et. by intros [= <-].
Qed.
Lemma delete_vals h e key h' op : EvDelete h e key = Ok (h', op) → vals_kept h h'.
Proof.
  unfold EvDelete, delete_path. destruct (keyToPath key) as [|k path]; [by intros [= <- <-] ? ? ?|]. destruct (map_of h (fields e)); [by intros [= <- <-] ? ? ?|].
  destruct (get_path h e _) as [[h1 v]|] eqn:Eg; [|done]. apply get_path_vals in Eg. intros H. assert (hvals h' = hvals h1) as Ev.
  { destruct v; injection H as <- <-; [|done]. unfold map_delete. by repeat case_match. }
  intros p1 x Hp. rewrite Ev. by apply Eg.
Qed.
Lemma end_put_keeps w h e i key op ow w' a : vals_kept (w_heap w) h → end_put w i (put h e key op ow) = Ok (w', a) → vals_kept (w_heap w) (w_heap w').
Proof.
  intros Hk H. unfold end_put in H. destruct (put h e key op ow) as [pr|] eqn:E; [|done]. injection H as <- <-. apply put_vals in E.
  intros p v Hp. by apply E, Hk.
Qed.
Lemma do_call_keeps null pls w i c w' a : Forall (λ pl, Forall (λ q, keeps_plain (p_prog q)) (pl_all pl)) pls →
  do_call null pls w i c = Ok (w', a) → plain_kept w w'.
Proof.
  intros Hpl H. assert (∀ w', vals_kept (w_heap w) (w_heap w') → plain_kept w w') as Hv by (intros x Hx p v Hp _; by apply Hx).
  unfold do_call in H. destruct (w_events w !! i) as [e|]; [|done]. destruct c as [key t|key t|key|key|from to|from to|key t|n].
  - pose proof (build_vals null t (w_heap w)) as Hb. destruct (build null (w_heap w) t) as [h op]. apply Hv. by eapply end_put_keeps in H.
  - pose proof (build_vals null t (w_heap w)) as Hb. destruct (build null (w_heap w) t) as [h op]. apply Hv. by eapply end_put_keeps in H.
  - destruct (Get _ e key) as [[h op]|] eqn:Eg; [|done]. apply get_path_vals in Eg. injection H as <- <-. by apply Hv.
  - destruct (EvDelete _ e key) as [[h op]|] eqn:Eg; [|done]. injection H as <- <-. apply Hv. by eapply delete_vals in Eg.
  - destruct (Get _ e from) as [[h op]|] eqn:Eg; [|done]. apply get_path_vals in Eg. apply Hv. by eapply end_put_keeps in H.
  - destruct (EvDelete _ e from) as [[h op]|] eqn:Eg; [|done]. apply delete_vals in Eg. apply Hv. by eapply end_put_keeps in H.
  - pose proof (build_vals null t (w_heap w)) as Hb. destruct (build null (w_heap w) t) as [h op].
    destruct (run_prog _ _ _) as [[[w1 pe1] err]|] eqn:E; [|done]. injection H as <- <-. apply append_keeps in E.
    eapply (plain_kept_trans _ (set_heap w h)); [by apply Hv|exact E].
  - destruct (pls !! n) as [pl|] eqn:En; [|done]. destruct (Process pl w (Some i)) as [[[w1 r] err]|] eqn:E; [|done]. injection H as <- <-.
    eapply Process_plain; [|exact E]. rewrite Forall_lookup in Hpl. by eapply Hpl.
Qed.
Lemma do_calls_keeps null pls cs : Forall (λ pl, Forall (λ q, keeps_plain (p_prog q)) (pl_all pl)) pls →
  ∀ w w' l, do_calls null pls w cs = Ok (w', l) → plain_kept w w'.
Proof.
  intros Hpl. induction cs as [|[i c] cs IH]; intros w w' l H; cbn [do_calls] in H; [simplify_eq; apply plain_kept_refl|].
  destruct (do_call null pls w i c) as [[w1 a]|] eqn:E1; [|done]. destruct (do_calls null pls w1 cs) as [[w2 l2]|] eqn:E2; [|done]. simplify_eq.
  eapply plain_kept_trans; [by eapply do_call_keeps|by eapply IH].
Qed.

(** ** Decoding into the shared null *)
Fixpoint fill (t : tree) (t0 : tree) : tree :=
  match t0 with
  | TNull => t
  | TArr l => TArr (map (fill t) l)
  | TObj m => TObj (map (λ kv, (kv.1, fill t kv.2)) m)
  | _ => t0
  end.
Definition has_all (null : ptr) (h H : heap) : Prop :=
  (∀ p v, p ≠ null → hvals h !! p = Some v → hvals H !! p = Some v) ∧ (∀ r gm, hmaps h !! r = Some gm → hmaps H !! r = Some gm).
Definition longer (h h' : heap) : Prop := hvals h `prefix_of` hvals h' ∧ hmaps h `prefix_of` hmaps h'.
Lemma longer_trans h1 h2 h3 : longer h1 h2 → longer h2 h3 → longer h1 h3.
Proof. intros [A B] [C D]. split; by etrans. Qed.
Lemma longer_val h v : longer h (mkHeap (hvals h ++ [v]) (hmaps h)).
Proof. split; cbn; [by apply prefix_app_r|done]. Qed.
Lemma build_longer null t : ∀ h, longer h (build null h t).1.
Proof.
  induction t as [| | | | | | | | |l IH| |m IH] using tree_ind'; intros h; try (apply longer_val); [done|done| |].
  - rewrite build_arr. assert (∀ h, longer h (build_list null h l).1) as Hl.
    { clear h. induction l as [|t l IHl]; intros h; simpl; [done|].
      apply Forall_cons in IH as [Ht IH]. specialize (Ht h). destruct (build null h t) as [h1 o]. simpl in Ht.
      specialize (IHl IH h1). destruct (build_list null h1 l). by eapply longer_trans. }
    specialize (Hl h). destruct (build_list null h l) as [h1 ops]. eapply longer_trans; [exact Hl|]. apply longer_val.
  - rewrite build_obj. assert (∀ h, longer h (build_assoc null h m).1) as Hl.
    { clear h. induction m as [|[k t] m IHl]; intros h; simpl; [done|].
      apply Forall_cons in IH as [Ht IH]. specialize (Ht h). simpl in Ht. destruct (build null h t) as [h1 o]. simpl in Ht.
      specialize (IHl IH h1). destruct (build_assoc null h1 m). by eapply longer_trans. }
    specialize (Hl h). destruct (build_assoc null h m) as [h1 gm]. eapply longer_trans; [exact Hl|]. split; cbn; by apply prefix_app_r.
Qed.
Lemma has_all_longer null h h' H : longer h h' → has_all null h' H → has_all null h H.
Proof. intros [[k1 E1] [k2 E2]] [A B]. split; [intros p v Hn Hp; apply A; [done|]; rewrite E1; by apply lookup_app_l_Some|intros r gm Hr; apply B; rewrite E2; by apply lookup_app_l_Some]. Qed.
Lemma longer_lt h h' n : longer h h' → n < length (hvals h) → n < length (hvals h').
Proof. intros [H _]. apply prefix_length in H. lia. Qed.
Lemma msorted_keys {A B} (g : gomap A) : ∀ (m : gomap B), g.*1 = m.*1 → msorted m → msorted g.
Proof.
  induction g as [|[k x] g IH]; intros [|[k' y] m] E Hm; try done. cbn in E. injection E as -> E. destruct Hm as [Hf Hm]. split; [|by eapply IH].
  assert (Forall (slt k') (m.*1)) as Hf' by (by apply Forall_fmap). rewrite <- E in Hf'. exact (proj1 (Forall_fmap fst (slt k') g) Hf').
Qed.
Lemma build_fill null H t fp : rep H (Some null) t fp → ∀ t0 h h' op, tsorted t0 → null < length (hvals h) → build null h t0 = (h', op) → has_all null h' H →
  ∃ fp', rep H op (fill t t0) fp'.
Proof.
  intros Ht t0. induction t0 as [| | | | | | | | |l IH| |m IH] using tree_ind'; intros h h' op Hts Hlt Hb Hall;
    try (injection Hb as <- <-; exists []; eapply rep_scalar; [apply Hall; [lia|]; cbn; rewrite lookup_app_r, Nat.sub_diag by apply Nat.le_refl; reflexivity|reflexivity]).
  - injection Hb as <- <-. exists []. constructor.
  - injection Hb as <- <-. by exists fp.
  - injection Hb as <- <-. eexists. eapply rep_nilarr; [apply Hall; [|cbn; rewrite lookup_app_r, Nat.sub_diag by apply Nat.le_refl; reflexivity]; lia|done..].
  - rewrite build_arr in Hb. apply tsorted_arr in Hts.
    assert (∀ h h1 ops, null < length (hvals h) → build_list null h l = (h1, ops) → has_all null h1 H → longer h h1 ∧ ∃ fps, rep_list H ops (map (fill t) l) fps) as Hl.
    { clear -IH Hts. induction l as [|x l IHl]; intros h h1 ops Hlt Hb Hall; cbn [build_list] in Hb.
      { injection Hb as <- <-. split; [done|]. exists []. constructor. }
      apply Forall_cons in IH as [IHx IH]. apply Forall_cons in Hts as [Hx Hts].
      pose proof (build_longer null x h) as L1. destruct (build null h x) as [h2 op] eqn:E1. cbn [fst] in L1.
      destruct (build_list null h2 l) as [h3 ops'] eqn:E2. injection Hb as <- <-.
      destruct (IHl IH Hts _ _ _ (longer_lt _ _ _ L1 Hlt) E2 Hall) as (L2 & fps & R2).
      destruct (IHx _ _ _ Hx Hlt E1 (has_all_longer _ _ _ _ L2 Hall)) as [fp' R1].
      split; [by eapply longer_trans|]. eexists. by constructor. }
    destruct (build_list null h l) as [h1 ops] eqn:E. injection Hb as <- <-.
    destruct (Hl h h1 ops Hlt E (has_all_longer _ _ _ _ (longer_val _ _) Hall)) as (L & fps & R).
    pose proof (longer_lt _ _ _ L Hlt) as Hlt1.
    eexists. eapply rep_arr; [apply Hall; [|cbn; rewrite lookup_app_r, Nat.sub_diag by apply Nat.le_refl; reflexivity]; lia|done..].
  - injection Hb as <- <-. eexists. eapply rep_nilobj; [apply Hall; [|cbn; rewrite lookup_app_r, Nat.sub_diag by apply Nat.le_refl; reflexivity]; lia|done..].
  - rewrite build_obj in Hb. apply tsorted_obj in Hts as [Hms Hts].
    assert (∀ h h1 gm, null < length (hvals h) → build_assoc null h m = (h1, gm) → has_all null h1 H → longer h h1 ∧ gm.*1 = m.*1 ∧
      ∃ fps, rep_assoc H gm (map (λ kv, (kv.1, fill t kv.2)) m) fps) as Hl.
    { clear -IH Hts. induction m as [|[k x] m IHl]; intros h h1 gm Hlt Hb Hall; cbn [build_assoc] in Hb.
      { injection Hb as <- <-. split; [done|]. split; [done|]. exists []. constructor. }
      apply Forall_cons in IH as [IHx IH]. apply Forall_cons in Hts as [Hx Hts]. cbn in IHx, Hx.
      pose proof (build_longer null x h) as L1. destruct (build null h x) as [h2 op] eqn:E1. cbn [fst] in L1.
      destruct (build_assoc null h2 m) as [h3 gm'] eqn:E2. injection Hb as <- <-.
      destruct (IHl IH Hts _ _ _ (longer_lt _ _ _ L1 Hlt) E2 Hall) as (L2 & Hk & fps & R2).
      destruct (IHx _ _ _ Hx Hlt E1 (has_all_longer _ _ _ _ L2 Hall)) as [fp' R1].
      split; [by eapply longer_trans|]. split; [by cbn; f_equal|]. eexists. by constructor. }
    destruct (build_assoc null h m) as [h1 gm] eqn:E. injection Hb as <- <-.
    assert (longer h1 (mkHeap (hvals h1 ++ [mkObject (Some (length (hmaps h1)))]) (hmaps h1 ++ [gm]))) as L' by (split; cbn; by apply prefix_app_r).
    destruct (Hl h h1 gm Hlt E (has_all_longer _ _ _ _ L' Hall)) as (L & Hk & fps & R).
    pose proof (longer_lt _ _ _ L Hlt) as Hlt1.
    eexists. eapply rep_obj; [apply Hall; [|cbn; rewrite lookup_app_r, Nat.sub_diag by apply Nat.le_refl; reflexivity]; lia|done|done| | |exact R].
    + apply Hall. cbn. rewrite lookup_app_r, Nat.sub_diag by apply Nat.le_refl. reflexivity.
    + by eapply msorted_keys.
Qed.
