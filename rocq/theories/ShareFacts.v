(** * Graphs: what they show, planting, cleanliness; nothing else changes. *)
From Verif Require Export ShareSem.
From Verif Require Import PipeSem.
From Coq Require Import Lia.

(** ** Planting *)
Fixpoint plant_list (l : list tree) (n : nat) : list item * list box :=
  match l with
  | [] => ([], [])
  | t :: l' => let '(x, b1) := plant_item t n in let '(xs, b2) := plant_list l' (n + length b1) in (x :: xs, b1 ++ b2)
  end.
Fixpoint plant_assoc (m : list (string * tree)) (n : nat) : list (string * item) * list box :=
  match m with
  | [] => ([], [])
  | (k, t) :: m' => let '(x, b1) := plant_item t n in let '(xs, b2) := plant_assoc m' (n + length b1) in ((k, x) :: xs, b1 ++ b2)
  end.
Lemma plant_arr l n : plant_item (TArr l) n = (IArr n, BxArr (Some (plant_list l (S n)).1) :: (plant_list l (S n)).2).
Proof.
  transitivity (let '(xs, bs) := plant_list l (S n) in (IArr n, BxArr (Some xs) :: bs)); [reflexivity|]. by destruct (plant_list l (S n)).
Qed.
Lemma plant_obj m n : plant_item (TObj m) n = (IObj n, BxObj (plant_assoc m (S n)).1 :: (plant_assoc m (S n)).2).
Proof.
  transitivity (let '(xs, bs) := plant_assoc m (S n) in (IObj n, BxObj xs :: bs)); [reflexivity|]. by destruct (plant_assoc m (S n)).
Qed.
Lemma plant_rep h :
  (∀ op t fp, rep h op t fp → ∀ names pre post, names = pre ++ fp ++ post →
     item_at h names op (plant_item t (length pre)).1 ∧ Forall2 (box_at h names) fp (plant_item t (length pre)).2) ∧
  (∀ ops ts fp, rep_list h ops ts fp → ∀ names pre post, names = pre ++ fp ++ post →
     Forall2 (item_at h names) ops (plant_list ts (length pre)).1 ∧ Forall2 (box_at h names) fp (plant_list ts (length pre)).2) ∧
  (∀ gm m fp, rep_assoc h gm m fp → ∀ names pre post, names = pre ++ fp ++ post →
     Forall2 (entry_at h names) gm (plant_assoc m (length pre)).1 ∧ Forall2 (box_at h names) fp (plant_assoc m (length pre)).2).
Proof.
  assert (∀ (pre : list loc) l fps post, (pre ++ (l :: fps) ++ post) !! length pre = Some l) as Hhere.
  { intros. rewrite lookup_app_r by done. by rewrite Nat.sub_diag. }
  assert (∀ (pre : list loc) l fps post, pre ++ (l :: fps) ++ post = (pre ++ [l]) ++ fps ++ post) as Hshift.
  { intros. by rewrite <- (assoc_L (++)). }
  assert (∀ (pre : list loc) l, length (pre ++ [l]) = S (length pre)) as Hlen by (intros; rewrite app_length; simpl; lia).
  apply rep_mutind.
  - intros names pre post _. cbn. split; [constructor|apply Forall2_nil_2].
  - intros p v t Hv Ht names pre post _. assert (plant_item t (length pre) = (IPlain t, [])) as ->.
    { apply scalar_tree_scalar in Ht. by destruct t. }
    cbn. split; [by eapply ia_scalar|apply Forall2_nil_2].
  - intros p v Hv Ht Ho Ha names pre post ->. cbn [plant_item fst snd]. split; [by eapply ia_arr|]. apply Forall2_cons. split; [by eapply ba_nilarr|apply Forall2_nil_2].
  - intros p v ops ts fps Hv Ht Ho Ha Hr IH names pre post ->. rewrite plant_arr. cbn [fst snd].
    destruct (IH _ (pre ++ [LArr p]) post (Hshift _ _ _ _)) as [IH1 IH2]. rewrite Hlen in IH1, IH2.
    split; [by eapply ia_arr|]. apply Forall2_cons. split; [by eapply ba_arr|done].
  - intros p v Hv Ht Ho names pre post _. cbn. split; [by eapply ia_nilobj|apply Forall2_nil_2].
  - intros p v r gm m fps Hv Ht Ho Hr Hs Ha IH names pre post ->. rewrite plant_obj. cbn [fst snd].
    destruct (IH _ (pre ++ [LMap r]) post (Hshift _ _ _ _)) as [IH1 IH2]. rewrite Hlen in IH1, IH2.
    split; [by eapply ia_obj|]. apply Forall2_cons. split; [by eapply ba_obj|done].
  - intros names pre post _. cbn. split; apply Forall2_nil_2.
  - intros op ops t ts fp fps H1 IH1 H2 IH2 names pre post E. cbn [plant_list].
    destruct (IH1 names pre (fps ++ post)) as [A1 A2]; [by rewrite E, <- (assoc_L (++))|].
    destruct (plant_item t (length pre)) as [x b1]. cbn [fst snd] in *. pose proof (Forall2_length _ _ _ A2) as El.
    destruct (IH2 names (pre ++ fp) post) as [B1 B2]; [by rewrite E, !(assoc_L (++))|]. rewrite app_length, El in B1, B2.
    destruct (plant_list ts (length pre + length b1)) as [xs b2]. cbn [fst snd] in *.
    split; [by apply Forall2_cons|by apply Forall2_app].
  - intros names pre post _. cbn. split; apply Forall2_nil_2.
  - intros k op gm t m fp fps H1 IH1 H2 IH2 names pre post E. cbn [plant_assoc].
    destruct (IH1 names pre (fps ++ post)) as [A1 A2]; [by rewrite E, <- (assoc_L (++))|].
    destruct (plant_item t (length pre)) as [x b1]. cbn [fst snd] in *. pose proof (Forall2_length _ _ _ A2) as El.
    destruct (IH2 names (pre ++ fp) post) as [B1 B2]; [by rewrite E, !(assoc_L (++))|]. rewrite app_length, El in B1, B2.
    destruct (plant_assoc m (length pre + length b1)) as [xs b2]. cbn [fst snd] in *.
    split; [by apply Forall2_cons|by apply Forall2_app].
Qed.
(** An event that shares nothing is its fields planted. *)
Lemma showing_drawn w i m fp : showing w i m fp → drawn w i (planted m) fp.
Proof.
  intros (e & Hi & Hev). unfold ev_rep in Hev. destruct (fields e) as [r|] eqn:Ef.
  - destruct Hev as (gm & fps & Hg & Hs & Ha & -> & Hnd). exists e.
    destruct (proj2 (proj2 (plant_rep (w_heap w))) gm m fps Ha (LMap r :: fps) [LMap r] []) as [H1 H2]; [by rewrite app_nil_r|].
    destruct m as [|kt m].
    { inversion Ha; subst. exists []. split_and!; [done| |].
      - split; [split; [constructor|constructor]|]. cbn. right. exists r. split_and!; [done|done|]. apply not_elem_of_nil.
      - intros l [Hl|(r' & E & ->)]; [by apply elem_of_nil in Hl|]. assert (r' = r) as -> by congruence. apply elem_of_cons. by left. }
    exists (LMap r :: fps). split_and!; [done| |].
    + split; [|by exists r]. split; [done|]. unfold planted. cbn [g_boxes]. rewrite plant_obj. cbn [snd].
      apply Forall2_cons. split; [by eapply ba_obj|done].
    + intros l [Hl|(r' & E & ->)]; [done|]. assert (r' = r) as -> by congruence. apply elem_of_cons. by left.
  - destruct Hev as [-> ->]. exists e, []. split_and!; [done| |].
    + split; [split; [constructor|constructor]|]. by left.
    + intros l [Hl|(r' & E & ->)]; [by apply elem_of_nil in Hl|]. congruence.
Qed.

(** ** What a graph shows is what is there *)
Lemma unfolds_ind' (bs : list box) (P : item → tree → Prop) :
  (∀ t, match t with TNilArr | TArr _ | TObj _ => False | _ => True end → P (IPlain t) t) →
  (∀ n, bs !! n = Some (BxArr None) → P (IArr n) TNilArr) →
  (∀ n l ts, bs !! n = Some (BxArr (Some l)) → Forall2 (unfolds bs) l ts → Forall2 P l ts → P (IArr n) (TArr ts)) →
  (∀ n m m', bs !! n = Some (BxObj m) → Forall2 (λ a b, a.1 = b.1 ∧ unfolds bs a.2 b.2) m m' →
     Forall2 (λ a b, a.1 = b.1 ∧ P a.2 b.2) m m' → P (IObj n) (TObj m')) →
  ∀ x t, unfolds bs x t → P x t.
Proof.
  intros H1 H2 H3 H4. fix IH 3. intros x t H. destruct H as [t Ht|n Hn|n l ts Hn Hl|n m m' Hn Hm].
  - by apply H1.
  - by apply H2.
  - apply (H3 n l ts Hn Hl). clear Hn. revert l ts Hl. fix IHl 3. intros l ts [|a b l' ts' Ha Hl']; constructor; [by apply IH|by apply IHl].
  - apply (H4 n m m' Hn Hm). clear Hn. revert m m' Hm. fix IHl 3. intros m m' [|a b l' ts' [Ha1 Ha2] Hl']; constructor; [split; [done|by apply IH]|by apply IHl].
Qed.
Lemma unfolds_fun bs x t : unfolds bs x t → ∀ t', unfolds bs x t' → t = t'.
Proof.
  revert x t. refine (unfolds_ind' bs (λ x t, ∀ t', unfolds bs x t' → t = t') _ _ _ _).
  - intros t Ht t' H. by inversion H.
  - intros n Hn t' H. inversion H; simplify_eq; congruence.
  - intros n l ts Hn _ IH t' H. inversion H as [|? Hn'|? l' ts' Hn' Hl'|]; subst; [congruence|].
    assert (l' = l) as -> by congruence. f_equal. clear -IH Hl'. revert ts' Hl'.
    induction IH as [|x t l ts Hx _ IH]; intros ts' Hl'; inversion Hl' as [|? t' ? ts1 Ht' Hl1]; subst; [done|].
    by rewrite (Hx _ Ht'), (IH _ Hl1).
  - intros n m m' Hn _ IH t' H. inversion H as [| | |? m1 m1' Hn' Hm']; subst.
    assert (m1 = m) as -> by congruence. f_equal. clear -IH Hm'. revert m1' Hm'.
    induction IH as [|[k x] [k2 t] l ts [E Hx] _ IH]; intros ts' Hl'; inversion Hl' as [|? [k3 t'] ? ts1 [E' Ht'] Hl1]; subst; [done|].
    cbn in *. subst. by rewrite (Hx _ Ht'), (IH _ Hl1).
Qed.
Lemma unfolds_rep h names bs x t : pic h names bs → unfolds bs x t → ∀ op, item_at h names op x → ∃ fp, rep h op t fp.
Proof.
  intros Hp. revert x t.
  assert (∀ n l, names !! n = Some l → ∃ b, bs !! n = Some b ∧ box_at h names l b) as Hbox by (intros; by eapply pic_lookup).
  refine (unfolds_ind' bs (λ x t, ∀ op, item_at h names op x → ∃ fp, rep h op t fp) _ _ _ _).
  - intros t Ht op Hx. inversion Hx as [|? v ? Hv Hs|? v Hv Hty Ho| |]; subst.
    + exists []. constructor.
    + exists []. by eapply rep_scalar.
    + exists []. by eapply rep_nilobj.
  - intros n Hn op Hx. inversion Hx as [| | |p v ? Hv Ht Ho Hl|]; subst. destruct (Hbox _ _ Hl) as (b & Hb & Hat).
    assert (b = BxArr None) as -> by congruence. inversion Hat as [? v' Hv' Ht' Ho' Ha'| |]; subst. exists [LArr p]. by eapply rep_nilarr.
  - intros n l ts Hn _ IH op Hx. inversion Hx as [| | |p v ? Hv Ht Ho Hl|]; subst. destruct (Hbox _ _ Hl) as (b & Hb & Hat).
    assert (b = BxArr (Some l)) as -> by congruence. inversion Hat as [|? v' ops xs Hv' Ht' Ho' Ha' Hxs|]; subst.
    assert (∃ fps, rep_list h ops ts fps) as [fps Hf].
    { clear -IH Hxs. revert ops Hxs. induction IH as [|x t l ts Hx _ IH]; intros ops Hxs; inversion Hxs as [|op ? ops' ? Hop Hxs']; subst; [exists []; constructor|].
      destruct (Hx _ Hop) as [fp Hfp]. destruct (IH _ Hxs') as [fps Hfps]. exists (fp ++ fps). by constructor. }
    exists (LArr p :: fps). by eapply rep_arr.
  - intros n m m' Hn _ IH op Hx. inversion Hx as [| | | |p v r ? Hv Ht Ho Hl]; subst. destruct (Hbox _ _ Hl) as (b & Hb & Hat).
    assert (b = BxObj m) as -> by congruence. inversion Hat as [| |? gm ? Hg Hs Hm]; subst.
    assert (∃ fps, rep_assoc h gm m' fps) as [fps Hf].
    { clear -IH Hm. revert gm Hm. induction IH as [|[k x] [k2 t] l ts [E Hx] _ IH]; intros gm Hxs; inversion Hxs as [|[k3 op] ? ops' ? [E' Hop] Hxs']; subst; [exists []; constructor|].
      cbn in *. subst. destruct (Hx _ Hop) as [fp Hfp]. destruct (IH _ Hxs') as [fps Hfps]. exists (fp ++ fps). by constructor. }
    exists (LMap r :: fps). by eapply rep_obj.
Qed.
Lemma rep_unfolds h names bs : pic h names bs →
  (∀ op t fp, rep h op t fp → ∀ x, item_at h names op x → unfolds bs x t) ∧
  (∀ ops ts fp, rep_list h ops ts fp → ∀ xs, Forall2 (item_at h names) ops xs → Forall2 (unfolds bs) xs ts) ∧
  (∀ gm m fp, rep_assoc h gm m fp → ∀ xs, Forall2 (entry_at h names) gm xs → Forall2 (λ a b, a.1 = b.1 ∧ unfolds bs a.2 b.2) xs m).
Proof.
  intros Hp.
  assert (∀ n l, names !! n = Some l → ∃ b, bs !! n = Some b ∧ box_at h names l b) as Hbox by (intros; by eapply pic_lookup).
  assert (∀ v t, scalar_tree v = Some t → v_type v ≠ ArrayType ∧ v_type v ≠ ObjectType) as Hsc.
  { intros v t H. unfold scalar_tree in H. destruct (v_obj v); [done|].
    repeat match type of H with (if N.eqb ?a ?b then _ else _) = _ => destruct (N.eqb_spec a b) as [->|?] end; simplify_eq; done. }
  assert (ArrayType ≠ ObjectType) as Hne by done.
  apply rep_mutind.
  - intros x Hx. inversion Hx; subst. by constructor.
  - intros p v t Hv Ht x Hx. destruct (Hsc _ _ Ht) as [N1 N2]. inversion Hx as [|? v' t' Hv' Ht'|? v' Hv' Hty' Ho'|? v' n Hv' Hty' Ho' Hl'|? v' r n Hv' Hty' Ho' Hl']; subst;
      assert (v' = v) as -> by congruence; try done.
    assert (t' = t) as -> by congruence. constructor. apply scalar_tree_scalar in Ht. by destruct t.
  - intros p v Hv Ht Ho Ha x Hx. inversion Hx as [|? v' t' Hv' Ht'|? v' Hv' Hty' Ho'|? v' n Hv' Hty' Ho' Hl'|? v' r n Hv' Hty' Ho' Hl']; subst;
      assert (v' = v) as -> by congruence; [by destruct (Hsc _ _ Ht')|congruence| |congruence].
    destruct (Hbox _ _ Hl') as (b & Hb & Hat). inversion Hat as [? v2 Hv2 Ht2 Ho2 Ha2|? v2 ops xs Hv2 Ht2 Ho2 Ha2 Hxs|]; subst; [by constructor|congruence].
  - intros p v ops ts fps Hv Ht Ho Ha _ IH x Hx. inversion Hx as [|? v' t' Hv' Ht'|? v' Hv' Hty' Ho'|? v' n Hv' Hty' Ho' Hl'|? v' r n Hv' Hty' Ho' Hl']; subst;
      assert (v' = v) as -> by congruence; [by destruct (Hsc _ _ Ht')|congruence| |congruence].
    destruct (Hbox _ _ Hl') as (b & Hb & Hat). inversion Hat as [? v2 Hv2 Ht2 Ho2 Ha2|? v2 ops2 xs Hv2 Ht2 Ho2 Ha2 Hxs|]; subst; [congruence|].
    assert (ops2 = ops) as -> by congruence. eapply un_arr; [exact Hb|by apply IH].
  - intros p v Hv Ht Ho x Hx. inversion Hx as [|? v' t' Hv' Ht'|? v' Hv' Hty' Ho'|? v' n Hv' Hty' Ho' Hl'|? v' r n Hv' Hty' Ho' Hl']; subst;
      assert (v' = v) as -> by congruence; [by destruct (Hsc _ _ Ht')|by constructor|congruence|congruence].
  - intros p v r gm m fps Hv Ht Ho Hr Hs _ IH x Hx. inversion Hx as [|? v' t' Hv' Ht'|? v' Hv' Hty' Ho'|? v' n Hv' Hty' Ho' Hl'|? v' r' n Hv' Hty' Ho' Hl']; subst;
      assert (v' = v) as -> by congruence; [by destruct (Hsc _ _ Ht')|congruence|congruence|].
    assert (r' = r) as -> by congruence. destruct (Hbox _ _ Hl') as (b & Hb & Hat). inversion Hat as [| |? gm' m' Hg' Hs' Hm']; subst.
    assert (gm' = gm) as -> by congruence. eapply un_obj; [exact Hb|by apply IH].
  - intros xs H. inversion H; subst. constructor.
  - intros op ops t ts fp fps _ IH1 _ IH2 xs H. inversion H as [|? x ? xs' Hx Hxs]; subst. constructor; [by apply IH1|by apply IH2].
  - intros xs H. inversion H; subst. constructor.
  - intros k op gm t m fp fps _ IH1 _ IH2 xs H. inversion H as [|? [k' x] ? xs' [E Hx] Hxs]; subst. cbn in *. subst. constructor; [split; [done|by apply IH1]|by apply IH2].
Qed.
(** The fields event [e] has, whether or not it shares. *)
Definition ev_like (h : heap) (e : event) (m : gomap tree) : Prop :=
  match fields e with
  | None => m = []
  | Some r => ∃ gm fps, hmaps h !! r = Some gm ∧ msorted gm ∧ rep_assoc h gm m fps
  end.
Lemma ev_rep_like h e m fp : ev_rep h e m fp → ev_like h e m.
Proof. unfold ev_rep, ev_like. destruct (fields e); [|by intros [-> _]]. intros (gm & fps & H1 & H2 & H3 & _). by exists gm, fps. Qed.
Lemma state_shows h e G names m : state h e G names → shows G m ↔ ev_like h e m.
Proof.
  intros [Hp Hr]. unfold shows, ev_like, root_ok in *. destruct (g_root G) as [n|].
  - destruct Hr as (r & -> & Hn). destruct (pic_lookup _ _ _ _ _ Hp Hn) as (b & Hb & Hat). inversion Hat as [| |? gm xs Hg Hs Hm]; subst. split.
    + intros H. inversion H as [| | |? xs' ? Hb' Hm']; subst. assert (xs' = xs) as -> by congruence. exists gm.
      assert (∃ fps, rep_assoc h gm m fps) as [fps Hf]; [|by exists fps].
      clear -Hm Hm' Hp. revert m Hm'. induction Hm as [|[k op] [k2 x] gm xs [E Hx] _ IH]; intros m Hm'; inversion Hm' as [|? [k3 t] ? m1 [E' Ht] Hm1]; subst; [exists []; constructor|].
      cbn in *. subst. destruct (unfolds_rep _ _ _ _ _ Hp Ht _ Hx) as [fp Hfp]. destruct (IH _ Hm1) as [fps Hfps]. exists (fp ++ fps). by constructor.
    + intros (gm' & fps & Hg' & _ & Ha). assert (gm' = gm) as -> by congruence. eapply un_obj; [exact Hb|].
      by eapply (proj2 (proj2 (rep_unfolds _ _ _ Hp))).
  - destruct Hr as [->|(r & -> & Hg & _)]; [done|]. split.
    + intros ->. exists [], []. split_and!; [done|done|constructor].
    + intros (gm & fps & Hg' & _ & Ha). assert (gm = []) as -> by congruence. by inversion Ha.
Qed.
Lemma drawn_shows w i G fp e m : drawn w i G fp → w_events w !! i = Some e → shows G m ↔ ev_like (w_heap w) e m.
Proof. intros (e' & names & Hi & Hs & _) He. assert (e' = e) as -> by congruence. by eapply state_shows. Qed.
Lemma shows_fun G m m' : shows G m → shows G m' → m = m'.
Proof.
  unfold shows. destruct (g_root G); [|congruence]. intros H1 H2. assert (TObj m = TObj m') as E by (by eapply unfolds_fun). by injection E.
Qed.

(** ** Other events *)
Lemma item_at_frame h h' W names op x : stable h h' W → (∀ l, l ∈ names → ¬ W l) → item_at h names op x → item_at h' names op x.
Proof.
  intros (Hv & _) Hd H. assert (∀ p v, hvals h !! p = Some v → v_type v ≠ ArrayType ∨ LArr p ∈ names → hvals h' !! p = Some v) as Hk.
  { intros p v Hp Hor. destruct (Hv _ _ Hp) as [?|[HW Ht]]; [done|]. destruct Hor as [?|Hin]; [done|]. by destruct (Hd _ Hin). }
  destruct H as [|p v t Hp Ht|p v Hp Ht Ho|p v n Hp Ht Ho Hl|p v r n Hp Ht Ho Hl]; [constructor|..].
  - eapply ia_scalar; [|done]. apply Hk; [done|]. left. by eapply scalar_tree_not_array.
  - eapply ia_nilobj; [|done|done]. apply Hk; [done|]. left. by rewrite Ht.
  - eapply ia_arr; [|done|done|done]. apply Hk; [done|]. right. by eapply elem_of_list_lookup_2.
  - eapply ia_obj; [|done|done|done]. apply Hk; [done|]. left. by rewrite Ht.
Qed.
Lemma box_at_frame h h' W names l b : stable h h' W → (∀ l, l ∈ names → ¬ W l) → l ∈ names → box_at h names l b → box_at h' names l b.
Proof.
  intros Hst Hd Hl H. pose proof Hst as (Hv & Hm & _). destruct H as [p v Hp Ht Ho Ha|p v ops xs Hp Ht Ho Ha Hx|r gm m Hr Hs Hx].
  - eapply ba_nilarr; try done. destruct (Hv _ _ Hp) as [?|[HW _]]; [done|]. by destruct (Hd _ Hl).
  - eapply ba_arr; try done; [|eapply Forall2_impl; [exact Hx|]; intros; by eapply item_at_frame].
    destruct (Hv _ _ Hp) as [?|[HW _]]; [done|]. by destruct (Hd _ Hl).
  - eapply ba_obj; try done; [|eapply Forall2_impl; [exact Hx|]; intros a c [? ?]; split; [done|by eapply item_at_frame]].
    destruct (Hm _ _ Hr) as [?|HW]; [done|]. by destruct (Hd _ Hl).
Qed.
Lemma drawn_frame w w' j G fp W : drawn w j G fp → w_events w' !! j = w_events w !! j → stable (w_heap w) (w_heap w') W →
  (∀ l, l ∈ fp → ¬ W l) → drawn w' j G fp.
Proof.
  intros (e & names & Hj & [Hp Hr] & Hown) Hj' Hst Hd. exists e, names. split_and!; [congruence| |done].
  assert (∀ l, l ∈ names → ¬ W l) as Hdn by (intros l Hl; apply Hd, Hown; by left). split.
  - destruct Hp as [Hnd Hf]. split; [done|]. apply Forall2_same_length_lookup. split; [by eapply Forall2_length|].
    intros k l b Hl Hb. eapply box_at_frame; [exact Hst|done|by eapply elem_of_list_lookup_2|]. by eapply (Forall2_lookup_lr _ _ _ k).
  - unfold root_ok in *. destruct (g_root G); [done|]. destruct Hr as [?|(r & Hf & Hg & Hn)]; [by left|right]. exists r. split; [done|]. split; [|done].
    pose proof Hst as (_ & Hm & _). destruct (Hm _ _ Hg) as [?|HW]; [done|]. destruct (Hd (LMap r)); [|done]. apply Hown. right. eauto.
Qed.
Lemma drawn_alloc w i G fp : drawn w i G fp → ∃ fp0, (∀ l, l ∈ fp0 → l ∈ fp ∧ ¬ EventRefine.fresh (w_heap w) l) ∧ drawn w i G fp0.
Proof.
  intros (e & names & Hi & Hs & Hown). set (fp0 := names ++ match fields e with Some r => [LMap r] | None => [] end).
  assert (∀ l, l ∈ fp0 ↔ own e names l) as Hiff.
  { intros l. unfold own, fp0. rewrite elem_of_app. destruct (fields e) as [r|].
    - rewrite elem_of_list_singleton. split; [intros [?|?]; eauto|intros [?|(r' & [= <-] & ?)]; eauto].
    - rewrite elem_of_nil. split; [intros [?|[]]; by left|intros [?|(r' & [=] & _)]; by left]. }
  exists fp0. split.
  - intros l Hl. apply Hiff in Hl. split; [by apply Hown|]. destruct Hs as [Hp Hr]. destruct Hl as [Hl|(r & Hf & ->)].
    + apply (pic_allocated _ _ _ _ Hp) in Hl. intros Hfr. destruct l; simpl in Hl, Hfr; lia.
    + unfold root_ok in Hr. simpl. destruct (g_root G) as [n|].
      * destruct Hr as (r' & Hf' & Hn). assert (r' = r) as -> by congruence. destruct (pic_map _ _ _ _ _ Hp Hn) as (gm & Hg & _). apply lookup_lt_Some in Hg. lia.
      * destruct Hr as [?|(r' & Hf' & Hg & _)]; [congruence|]. assert (r' = r) as -> by congruence. apply lookup_lt_Some in Hg. lia.
  - exists e, names. split_and!; [done|done|]. intros l. by apply Hiff.
Qed.

(** ** Copies are no longer a gap *)
Lemma gread_shares key G : gread key G ≠ Shares.
Proof. unfold gread. destruct (g_root G); [|done]. destruct (decide _); [done|]. by destruct (follow _ _ _). Qed.
Lemma gstore_shares key x G : gstore key x G ≠ Shares.
Proof. unfold gstore. destruct (decide _); [done|]. destruct (rooted G) as [G1 n1]. by destruct (place _ _ _ _) as [[]|]. Qed.
Lemma gsem_shares b G : gsem b G ≠ Shares.
Proof.
  assert (∀ key f, (∀ o : option item, f o ≠ Shares) → vbind (gread key G) f ≠ (Shares : verdict (graph * option goerr))) as Hr.
  { intros key f Hf. pose proof (gread_shares key G). destruct (gread key G); [apply Hf|done|done]. }
  assert (∀ msg f field target, gchange_case msg f field target G ≠ Shares) as Hc.
  { intros. apply Hr. intros [[[]| |]|]; try done. apply gstore_shares. }
  destruct b; cbn [gsem]; try apply Hc; try done; try apply gstore_shares; apply Hr.
  - intros [[[]| |]|]; try done. cbn [grow]. match goal with |- context [gstore ?a ?b ?c] => pose proof (gstore_shares a b c) as H; by destruct (gstore a b c) as [[]| |] end.
  - intros [x|]; [apply gstore_shares|done].
Qed.
Lemma gsem_pipe_shares b G : gsem_pipe b G ≠ Shares.
Proof. apply (run_pipe_shares gsem (λ _, True)); [intros; apply gsem_shares|]. apply Forall_forall. done. Qed.

(** ** What holds of every plain value *)
Section keeps.
Context (P : tree → Prop).
Definition item_ok (x : item) : Prop := match x with IPlain t => P t | _ => True end.
Definition box_ok (b : box) : Prop :=
  match b with BxArr None => True | BxArr (Some l) => Forall item_ok l | BxObj m => Forall (λ kv, item_ok kv.2) m end.
Definition graph_ok (G : graph) : Prop := Forall box_ok (g_boxes G).
Context (strings : ∀ s, P (TStr s)).
Lemma entries_ok bs n : Forall box_ok bs → Forall (λ kv, item_ok kv.2) (entries bs n).
Proof.
  intros H. unfold entries. destruct (bs !! n) as [b|] eqn:E; [|constructor]. rewrite Forall_lookup in H. specialize (H _ _ E). by destruct b.
Qed.
Lemma elems_ok bs n : Forall box_ok bs → Forall item_ok (elems bs n).
Proof.
  intros H. unfold elems. destruct (bs !! n) as [b|] eqn:E; [|constructor]. rewrite Forall_lookup in H. specialize (H _ _ E). by destruct b as [[]|].
Qed.
Lemma mget_ok k (m : gomap item) x : Forall (λ kv, item_ok kv.2) m → mget k m = Some x → item_ok x.
Proof. rewrite Forall_forall. intros H Hk. apply mget_Some_In in Hk. apply (H (k, x)). by apply elem_of_list_In. Qed.
Lemma mset_ok k (m : gomap item) x : Forall (λ kv, item_ok kv.2) m → item_ok x → Forall (λ kv, item_ok kv.2) (mset k x m).
Proof.
  intros H Hx. induction H as [|[k' y] m Hy Hm IH]; simpl; [by repeat constructor|].
  destruct (String.compare k k'); repeat (apply List.Forall_cons; [done|]); done.
Qed.
Lemma set_key_ok n k x bs : Forall box_ok bs → item_ok x → Forall box_ok (set_key n k x bs).
Proof. intros H Hx. apply Forall_insert; [done|]. simpl. apply mset_ok; [by apply entries_ok|done]. Qed.
Lemma follow_ok path n bs x : Forall box_ok bs → follow path n bs = Ok (Some x) → item_ok x.
Proof.
  intros Hb. revert n. induction path as [|k path IH]; intros n H; [by injection H as <-|]. cbn [follow] in H.
  destruct (mget k (entries bs n)) as [y|] eqn:E; [|done]. pose proof (mget_ok _ _ _ (entries_ok bs n Hb) E) as Hy.
  destruct path as [|k2 path].
  - destruct y as [[]| |]; simplify_eq; done.
  - destruct y as [[]| |n']; try done. by eapply IH.
Qed.
Lemma place_ok path n x bs bs' : Forall box_ok bs → item_ok x → place path n x bs = Ok (Some bs') → Forall box_ok bs'.
Proof.
  intros Hb Hx. revert n bs Hb. induction path as [|k path IH]; intros n bs Hb H; [done|]. destruct path as [|k2 path].
  - cbn [place] in H. simplify_eq. by apply set_key_ok.
  - rewrite place_cons in H. destruct (mget k (entries bs n)) as [[[]| |n']|]; try done; (eapply IH; [|exact H]); [done|].
    apply Forall_app. split; [by apply set_key_ok|]. repeat constructor.
Qed.
Lemma gread_ok key G x : graph_ok G → gread key G = Gives (Some x) → item_ok x.
Proof.
  intros HG. unfold gread. destruct (g_root G) as [n|]; [|done]. destruct (decide _); [done|].
  destruct (follow _ _ _) as [o|] eqn:E; [|done]. intros [= ->]. by eapply follow_ok.
Qed.
Lemma gstore_ok key x G : graph_ok G → item_ok x → fineC True (gstore key x G) (λ '(G', _), graph_ok G').
Proof.
  intros HG Hx. unfold gstore. destruct (decide _); [done|].
  assert (graph_ok (rooted G).1) as HG1. { unfold rooted. destruct (g_root G); [done|]. apply Forall_app. split; [done|]. repeat constructor. }
  destruct (rooted G) as [G1 n1]. cbn [fst] in HG1. destruct (place _ _ _ _) as [[bs|]|] eqn:E; [|done|done]. unfold graph_ok. by eapply place_ok.
Qed.
Lemma append_ok n value G : graph_ok G → graph_ok (append_to n value G).
Proof.
  intros HG. apply Forall_insert; [done|]. simpl. apply Forall_app. split; [by apply elems_ok|]. repeat constructor. simpl. apply strings.
Qed.
Lemma gsem_ok b G : fine_conf P b → graph_ok G → fineC True (gsem b G) (λ '(G', _), graph_ok G').
Proof.
  intros Hb HG.
  assert (∀ msg f field target, fineC True (gchange_case msg f field target G) (λ '(G', _), graph_ok G')) as Hc.
  { intros msg f field target. unfold gchange_case. destruct (gread field G) as [[[[]| |]|]| |]; try done. cbn [vbind]. by apply gstore_ok; [|apply strings]. }
  destruct b; cbn [gsem fine_conf] in *; try apply Hc; try done.
  - destruct (gread field G) as [[[[]| |]|]| |]; try done; cbn [vbind grow]; [by apply append_ok|].
    match goal with |- context [gstore ?a ?b ?c] => assert (fineC True (gstore a b c) (λ '(G', _), graph_ok G')) as H;
      [apply gstore_ok; [|done]|destruct (gstore a b c) as [[G' err]| |]; [|done|done]] end.
    + apply Forall_app. split; [done|]. repeat constructor.
    + cbn [vbind fineC] in *. by apply append_ok.
  - by apply gstore_ok.
  - destruct (gread from G) as [[x|]| |] eqn:E; try done. cbn [vbind]. apply gstore_ok; [done|]. by eapply gread_ok.
Qed.
Lemma gsem_pipe_ok b : Forall (fine_conf P) (pipe_confs b) → ∀ G, graph_ok G → fineC True (gsem_pipe b G) (λ '(G', _, _), graph_ok G').
Proof. apply run_pipe_keeps. apply gsem_ok. Qed.
(** All plain values in a tree. *)
Fixpoint tall (t : tree) : Prop :=
  match t with
  | TNilArr => True
  | TArr l => fold_right (λ t q, tall t ∧ q) True l
  | TObj m => fold_right (λ (kv : string * tree) q, (let '(_, t) := kv in tall t) ∧ q) True m
  | _ => P t
  end.
Lemma plant_ok t : tall t → ∀ n, item_ok (plant_item t n).1 ∧ Forall box_ok (plant_item t n).2.
Proof.
  induction t as [| | | | | | | | |l IH| |m IH] using tree_ind'; intros Ht n; try (cbn; split; [done|apply List.Forall_nil]).
  - cbn. split; [done|]. by repeat constructor.
  - rewrite plant_arr. cbn [fst snd]. split; [done|].
    assert (∀ n, Forall item_ok (plant_list l n).1 ∧ Forall box_ok (plant_list l n).2) as H; [|destruct (H (S n)); by constructor].
    clear n. cbn [tall] in Ht. induction IH as [|t l Hl _ IHl]; intros n; cbn [plant_list]; [split; constructor|]. cbn [fold_right] in Ht. destruct Ht as [Ht1 Ht2].
    destruct (Hl Ht1 n) as [A1 A2]. destruct (plant_item t n) as [x b1]. destruct (IHl Ht2 (n + length b1)) as [B1 B2]. destruct (plant_list l _) as [xs b2].
    cbn [fst snd] in *. split; [apply List.Forall_cons; [exact A1|exact B1]|apply Forall_app; by split].
  - rewrite plant_obj. cbn [fst snd]. split; [done|].
    assert (∀ n, Forall (λ kv, item_ok kv.2) (plant_assoc m n).1 ∧ Forall box_ok (plant_assoc m n).2) as H; [|destruct (H (S n)); by constructor].
    clear n. cbn [tall] in Ht. induction IH as [|[k t] m Hl _ IHl]; intros n; cbn [plant_assoc]; [split; constructor|]. cbn [fold_right] in Ht. cbn [snd] in Hl. destruct Ht as [Ht1 Ht2].
    destruct (Hl Ht1 n) as [A1 A2]. destruct (plant_item t n) as [x b1]. destruct (IHl Ht2 (n + length b1)) as [B1 B2]. destruct (plant_assoc m _) as [xs b2].
    cbn [fst snd] in *. split; [apply List.Forall_cons; [exact A1|exact B1]|apply Forall_app; by split].
Qed.
Lemma planted_ok m : tall (TObj m) → graph_ok (planted m).
Proof. intros H. unfold planted. destruct m; [constructor|]. unfold graph_ok. cbn [g_boxes]. by apply plant_ok. Qed.
End keeps.

(** ** No panic without nil values *)
Definition not_nil (t : tree) : Prop := t ≠ TNil ∧ t ≠ TNilObj.
Lemma follow_fine path n bs : Forall (box_ok not_nil) bs → ∃ o, follow path n bs = Ok o.
Proof.
  intros Hb. revert n. induction path as [|k path IH]; intros n; [by eexists|]. cbn [follow].
  destruct (mget k (entries bs n)) as [y|] eqn:E; [|by eexists]. pose proof (mget_ok _ _ _ _ (entries_ok _ bs n Hb) E) as Hy.
  destruct path as [|k2 path]; [destruct y as [[]| |]; by eexists|]. destruct y as [[]| |n']; try by eexists.
  - by destruct Hy.
  - apply IH.
Qed.
Lemma place_fine path n x bs : Forall (box_ok not_nil) bs → ∃ o, place path n x bs = Ok o.
Proof.
  revert n bs. induction path as [|k path IH]; intros n bs Hb; [by eexists|]. destruct path as [|k2 path]; [by eexists|]. rewrite place_cons.
  destruct (mget k (entries bs n)) as [y|] eqn:E.
  - pose proof (mget_ok _ _ _ _ (entries_ok _ bs n Hb) E) as Hy. destruct y as [[]| |n']; try (by eexists); try (by destruct Hy). by apply IH.
  - apply IH. apply Forall_app. split; [by apply set_key_ok|]. repeat constructor.
Qed.
Lemma gread_fine key G : graph_ok not_nil G → ∃ o, gread key G = Gives o.
Proof.
  intros HG. unfold gread. destruct (g_root G) as [n|]; [|by eexists]. destruct (decide _); [by eexists|].
  destruct (follow_fine (spec_path key) n _ HG) as [o ->]. by eexists.
Qed.
Lemma gstore_fine key x G : graph_ok not_nil G → gstore key x G ≠ Crashes.
Proof.
  intros HG. unfold gstore. destruct (decide _); [done|].
  assert (graph_ok not_nil (rooted G).1) as HG1. { unfold rooted. destruct (g_root G); [done|]. apply Forall_app. split; [done|]. repeat constructor. }
  destruct (rooted G) as [G1 n1]. cbn [fst] in HG1. destruct (place_fine (spec_path key) n1 x _ HG1) as [o ->]. by destruct o.
Qed.
Lemma gsem_fine b G : fine_conf not_nil b → graph_ok not_nil G → fine (gsem b G) (λ '(G', _), graph_ok not_nil G').
Proof.
  intros Hb HG. pose proof (gsem_ok not_nil ltac:(done) b G Hb HG) as H. destruct (gsem b G) as [a| |] eqn:E; [exact H| |done]. exfalso. clear H.
  assert (∀ msg f field target, gchange_case msg f field target G ≠ Crashes) as Hc.
  { intros msg f field target. unfold gchange_case. destruct (gread_fine field G HG) as [o ->]. cbn [vbind]. destruct o as [[[]| |]|]; try done. by apply gstore_fine. }
  destruct b; cbn [gsem] in E; try (by apply Hc in E); try done.
  - destruct (gread_fine field G HG) as [o Ho]. rewrite Ho in E. cbn [vbind] in E. destruct o as [[[]| |]|]; try done. cbn [grow] in E.
    match type of E with context [gstore ?a ?b ?c] => assert (gstore a b c ≠ Crashes) as Hs; [apply gstore_fine|by destruct (gstore a b c) as [[]| |]] end.
    apply Forall_app. split; [done|]. repeat constructor.
  - by apply gstore_fine in E.
  - destruct (gread_fine from G HG) as [o Ho]. rewrite Ho in E. cbn [vbind] in E. destruct o as [x|]; [|done]. by apply gstore_fine in E.
Qed.
Lemma gsem_pipe_fine b : Forall (fine_conf not_nil) (pipe_confs b) → ∀ G, graph_ok not_nil G → fine (gsem_pipe b G) (λ '(G', _, _), graph_ok not_nil G').
Proof. apply run_pipe_keeps. apply gsem_fine. Qed.
