(** * Graphs and heaps: the operations of ShareSpec.v are those of events. *)
From Verif Require Export ShareSpec PipeGen.
From Coq Require Import Lia.

(** [names] says which container of the heap a number stands for. *)
Inductive item_at (h : heap) (names : list loc) : option ptr → item → Prop :=
| ia_nil : item_at h names None (IPlain TNil)
| ia_scalar p v t : hvals h !! p = Some v → scalar_tree v = Some t → item_at h names (Some p) (IPlain t)
| ia_nilobj p v : hvals h !! p = Some v → v_type v = ObjectType → v_obj v = None → item_at h names (Some p) (IPlain TNilObj)
| ia_arr p v n : hvals h !! p = Some v → v_type v = ArrayType → v_obj v = None → names !! n = Some (LArr p) → item_at h names (Some p) (IArr n)
| ia_obj p v r n : hvals h !! p = Some v → v_type v = ObjectType → v_obj v = Some r → names !! n = Some (LMap r) → item_at h names (Some p) (IObj n).
Notation entry_at h names := (λ (a : string * option ptr) (b : string * item), a.1 = b.1 ∧ item_at h names a.2 b.2).
Inductive box_at (h : heap) (names : list loc) : loc → box → Prop :=
| ba_nilarr p v : hvals h !! p = Some v → v_type v = ArrayType → v_obj v = None → v_arr v = None → box_at h names (LArr p) (BxArr None)
| ba_arr p v ops xs : hvals h !! p = Some v → v_type v = ArrayType → v_obj v = None → v_arr v = Some ops →
    Forall2 (item_at h names) ops xs → box_at h names (LArr p) (BxArr (Some xs))
| ba_obj r gm m : hmaps h !! r = Some gm → msorted gm → Forall2 (entry_at h names) gm m → box_at h names (LMap r) (BxObj m).
Definition pic (h : heap) (names : list loc) (bs : list box) : Prop := NoDup names ∧ Forall2 (box_at h names) names bs.

(** Array cells stay array cells, other cells stay. *)
Definition stays (h h' : heap) : Prop :=
  ∀ p v, hvals h !! p = Some v → ∃ v', hvals h' !! p = Some v' ∧
    (v' = v ∨ v_type v = ArrayType ∧ v_type v' = ArrayType ∧ v_obj v' = v_obj v).
Lemma stays_refl h : stays h h.
Proof. intros p v H. eauto. Qed.
Lemma stays_trans h1 h2 h3 : stays h1 h2 → stays h2 h3 → stays h1 h3.
Proof.
  intros H1 H2 p v Hp. destruct (H1 _ _ Hp) as (v2 & Hp2 & Hor). destruct (H2 _ _ Hp2) as (v3 & Hp3 & Hor3).
  exists v3. split; [done|]. destruct Hor as [->|(A1 & A2 & A3)]; [done|]. destruct Hor3 as [->|(B1 & B2 & B3)]; right; split_and!; congruence.
Qed.
Lemma stays_alloc h v : stays h (alloc_val h v).1.
Proof. intros p x Hp. exists x. split; [|by left]. simpl. by apply lookup_app_l_Some. Qed.
Lemma stays_vals h h' : hvals h = hvals h' → stays h h'.
Proof. intros E p v Hp. exists v. rewrite <- E. auto. Qed.
Lemma item_at_mono h h' names names' op x : stays h h' → names `prefix_of` names' → item_at h names op x → item_at h' names' op x.
Proof.
  intros Hst [extra ->] H.
  assert (∀ n l, names !! n = Some l → (names ++ extra) !! n = Some l) as Hn by (intros; by apply lookup_app_l_Some).
  destruct H as [|p v t Hp Ht|p v Hp Ht Ho|p v n Hp Ht Ho Hl|p v r n Hp Ht Ho Hl]; [constructor|..];
    destruct (Hst _ _ Hp) as (v' & Hp' & Hor).
  - destruct Hor as [->|(A & _)]; [by eapply ia_scalar|]. by apply scalar_tree_not_array in Ht.
  - destruct Hor as [->|(A & _)]; [by eapply ia_nilobj|]. rewrite Ht in A. discriminate A.
  - eapply (ia_arr _ _ p v'); try done; [|by destruct Hor as [->|(A & B & C)]; congruence|by apply Hn].
    by destruct Hor as [->|(A & B & C)].
  - destruct Hor as [->|(A & _)]; [by eapply ia_obj; [..|by apply Hn]|]. rewrite Ht in A. discriminate A.
Qed.
Lemma entries_mono h h' names names' gm m : stays h h' → names `prefix_of` names' →
  Forall2 (entry_at h names) gm m → Forall2 (entry_at h' names') gm m.
Proof. intros H1 H2 H. eapply Forall2_impl; [exact H|]. intros a b [? ?]. split; [done|]. by eapply item_at_mono. Qed.
Lemma items_mono h h' names names' ops xs : stays h h' → names `prefix_of` names' →
  Forall2 (item_at h names) ops xs → Forall2 (item_at h' names') ops xs.
Proof. intros H1 H2 H. eapply Forall2_impl; [exact H|]. intros. by eapply item_at_mono. Qed.
(** A container that is not written to. *)
Definition same_at (h h' : heap) (l : loc) : Prop :=
  match l with LArr p => hvals h' !! p = hvals h !! p | LMap r => hmaps h' !! r = hmaps h !! r end.
Lemma box_at_mono h h' names names' l b : stays h h' → names `prefix_of` names' → same_at h h' l →
  box_at h names l b → box_at h' names' l b.
Proof.
  intros H1 H2 Hs H. destruct H as [p v Hp Ht Ho Ha|p v ops xs Hp Ht Ho Ha Hl|r gm m Hr Hso Hm]; simpl in Hs.
  - eapply ba_nilarr; [by rewrite Hs|done..].
  - eapply ba_arr; [by rewrite Hs|done..|by eapply items_mono].
  - eapply ba_obj; [by rewrite Hs|done|by eapply entries_mono].
Qed.
Lemma pic_lookup h names bs n l : pic h names bs → names !! n = Some l → ∃ b, bs !! n = Some b ∧ box_at h names l b.
Proof. intros [_ H] Hn. by eapply Forall2_lookup_l. Qed.
Lemma pic_length h names bs : pic h names bs → length bs = length names.
Proof. intros [_ H]. symmetry. by eapply Forall2_length. Qed.
Lemma pic_map h names bs n r : pic h names bs → names !! n = Some (LMap r) →
  ∃ gm, hmaps h !! r = Some gm ∧ msorted gm ∧ bs !! n = Some (BxObj (entries bs n)) ∧ Forall2 (entry_at h names) gm (entries bs n).
Proof.
  intros H Hn. destruct (pic_lookup _ _ _ _ _ H Hn) as (b & Hb & Hat). inversion Hat as [| |? gm m Hr Hs Hm]; subst.
  exists gm. unfold entries. by rewrite Hb.
Qed.
(** Everything but number [n] untouched. *)
Lemma pic_update h h' names names' extra bs n l b new : pic h names bs → stays h h' → names' = names ++ extra → NoDup names' →
  (∀ l', l' ∈ names → l' ≠ l → same_at h h' l') → names !! n = Some l →
  box_at h' names' l b → Forall2 (box_at h' names') extra new → pic h' names' (<[n := b]> bs ++ new).
Proof.
  intros Hpic Hst -> Hnd Hsame Hn Hb Hnew. split; [done|]. apply Forall2_app; [|done]. destruct Hpic as [Hnd0 Hf].
  apply Forall2_same_length_lookup. pose proof (Forall2_length _ _ _ Hf) as Hlen. split; [by rewrite insert_length|].
  intros j l' b' Hl' Hb'. destruct (decide (j = n)) as [->|Hne].
  - rewrite list_lookup_insert in Hb' by (rewrite <- Hlen; by eapply lookup_lt_Some). by simplify_eq.
  - rewrite list_lookup_insert_ne in Hb' by done.
    eapply box_at_mono; [exact Hst|by eexists| |].
    + apply Hsame; [by eapply elem_of_list_lookup_2|]. intros ->. apply Hne. exact (NoDup_lookup _ _ _ _ Hnd0 Hl' Hn).
    + by eapply (Forall2_lookup_lr _ _ _ j).
Qed.
Lemma pic_grow h h' names extra bs new : pic h names bs → stays h h' → NoDup (names ++ extra) →
  (∀ l, l ∈ names → same_at h h' l) → Forall2 (box_at h' (names ++ extra)) extra new → pic h' (names ++ extra) (bs ++ new).
Proof.
  intros [Hnd Hf] Hst Hnd2 Hsame Hnew. split; [done|]. apply Forall2_app; [|done].
  apply Forall2_same_length_lookup. split; [by eapply Forall2_length|]. intros j l b Hl Hb.
  eapply box_at_mono; [exact Hst|by eexists|apply Hsame; by eapply elem_of_list_lookup_2|]. by eapply (Forall2_lookup_lr _ _ _ j).
Qed.
Lemma pic_stays h h' names bs : pic h names bs → stays h h' → (∀ l, l ∈ names → same_at h h' l) → pic h' names bs.
Proof.
  intros H1 H2 H3. rewrite <- (app_nil_r bs). rewrite <- (app_nil_r names). eapply pic_grow; [done|done| |done|constructor].
  rewrite app_nil_r. apply H1.
Qed.
(** Entries, looked up and set. *)
Lemma entries_get h names gm m k : Forall2 (entry_at h names) gm m →
  match mget k m with None => mget k gm = None | Some x => ∃ op, mget k gm = Some op ∧ item_at h names op x end.
Proof.
  induction 1 as [|[k1 op] [k2 x] gm m [E H] _ IH]; [done|]. simpl in *. subst k2. destruct (String.eqb k k1); [eauto|done].
Qed.
Lemma entries_set h names gm m k op x : Forall2 (entry_at h names) gm m → item_at h names op x →
  Forall2 (entry_at h names) (mset k op gm) (mset k x m).
Proof.
  intros H Hx. induction H as [|[k1 op1] [k2 x2] gm m [E H] Hr IH]; [by repeat constructor|]. simpl in *. subst k2.
  destruct (String.compare k k1); constructor; try done. by constructor.
Qed.
Lemma entries_nil h names gm m : Forall2 (entry_at h names) gm m → m = [] ↔ gm = [].
Proof. by inversion 1. Qed.

(** ** Lookup *)
Lemma follow_ref h names bs path n r : pic h names bs → names !! n = Some (LMap r) → path ≠ [] →
  match follow path n bs with
  | Panic => get_loop h (Some r) path = Panic
  | Ok o => ∃ op, get_loop h (Some r) path = Ok op ∧ match o with None => op = None | Some x => op ≠ None ∧ item_at h names op x end
  end.
Proof.
  intros Hp. revert n r. induction path as [|k path IH]; intros n r Hn Hne; [done|].
  destruct (pic_map _ _ _ _ _ Hp Hn) as (gm & Hr & Hs & Hb & Hm). pose proof (entries_get _ _ _ _ k Hm) as Hk.
  cbn [follow get_loop map_of]. rewrite Hr. destruct (mget k (entries bs n)) as [x|].
  2:{ rewrite Hk. exists None. by destruct path. }
  destruct Hk as (op & -> & Hx). destruct path as [|k2 path].
  { destruct Hx as [|p v t Hv Ht|p v Hv Ht Ho|p v m' Hv Ht Ho Hl|p v r' m' Hv Ht Ho Hl].
    - by exists None.
    - pose proof (scalar_tree_scalar _ _ Ht) as Hsc. destruct t; try done; (exists (Some p); split; [done|]; split; [done|]; by eapply ia_scalar).
    - exists (Some p). split; [done|]. split; [done|]. by eapply ia_nilobj.
    - exists (Some p). split; [done|]. split; [done|]. by eapply ia_arr.
    - exists (Some p). split; [done|]. split; [done|]. by eapply ia_obj. }
  destruct Hx as [|p v t Hv Ht|p v Hv Ht Ho|p v m' Hv Ht Ho Hl|p v r' m' Hv Ht Ho Hl].
  - done.
  - cbn [deref]. rewrite Hv, (scalar_tree_obj _ _ Ht). cbn [map_of]. apply scalar_tree_scalar in Ht. destruct t; try done; by exists None.
  - cbn [deref]. rewrite Hv, Ho. cbn [map_of]. by exists None.
  - cbn [deref]. rewrite Hv, Ho. cbn [map_of]. by exists None.
  - cbn [deref]. rewrite Hv, Ho. specialize (IH m' r' Hl ltac:(done)).
    destruct (pic_map _ _ _ _ _ Hp Hl) as (gm' & Hr' & Hs' & Hb' & Hm'). cbn [map_of]. rewrite Hr'.
    destruct gm' as [|a gm']; [|exact IH]. assert (entries bs m' = []) as E by (by apply (entries_nil _ _ _ _ Hm')).
    assert (follow (k2 :: path) m' bs = Ok None) as -> by (cbn [follow]; rewrite E; done). by exists None.
Qed.

(** ** Storing *)
Lemma box_allocated h names l b : box_at h names l b → allocated h l.
Proof. destruct 1; simpl; by eapply lookup_lt_Some. Qed.
Lemma pic_allocated h names bs l : pic h names bs → l ∈ names → allocated h l.
Proof.
  intros Hp Hl. apply elem_of_list_lookup in Hl as [n Hn]. destruct (pic_lookup _ _ _ _ _ Hp Hn) as (b & _ & Hb). by eapply box_allocated.
Qed.
Lemma pic_fresh_NoDup h names bs l : pic h names bs → EventRefine.fresh h l → NoDup (names ++ [l]).
Proof.
  intros Hp Hf. apply NoDup_app. split_and!; [apply Hp| |apply NoDup_singleton]. intros l' Hl ->%elem_of_list_singleton.
  apply (pic_allocated _ _ _ _ Hp) in Hl. by apply not_fresh_allocated in Hl.
Qed.
Lemma entries_set_key n k x bs : n < length bs → entries (set_key n k x bs) n = mset k x (entries bs n).
Proof. intros H. unfold set_key. unfold entries at 1. by rewrite list_lookup_insert. Qed.
Lemma place_cons k k2 rest n x bs : place (k :: k2 :: rest) n x bs =
  match mget k (entries bs n) with
  | None => place (k2 :: rest) (length bs) x (set_key n k (IObj (length bs)) bs ++ [BxObj []])
  | Some (IObj n') => place (k2 :: rest) n' x bs
  | Some (IPlain TNil) | Some (IPlain TNilObj) => Panic
  | Some _ => Ok None
  end.
Proof. done. Qed.
Lemma place_empty path x : path ≠ [] → ∀ n bs, n < length bs → entries bs n = [] → ∃ bs', place path n x bs = Ok (Some bs').
Proof.
  induction path as [|k path IH]; intros Hne n bs Hn He; [done|]. destruct path as [|k2 path]; [by eexists|].
  cbn [place]. rewrite He. cbn [mget]. apply IH; [done| |].
  - unfold set_key. rewrite app_length, insert_length. simpl. lia.
  - unfold entries. rewrite lookup_app_r; unfold set_key; rewrite insert_length; [by rewrite Nat.sub_diag|lia].
Qed.
Lemma map_step h names bs n r k op x : pic h names bs → names !! n = Some (LMap r) → item_at h names op x →
  ∃ h', map_write h (Some r) k op = Ok h' ∧ pic h' names (set_key n k x bs) ∧ stays h h' ∧
    stable h h' (λ l, l ∈ names) ∧ hvals h' = hvals h.
Proof.
  intros Hp Hn Hx. destruct (pic_map _ _ _ _ _ Hp Hn) as (gm & Hr & Hs & Hb & Hm).
  destruct (map_write h (Some r) k op) as [h'|] eqn:E; cbn [map_write] in E; rewrite Hr in E; [|done].
  injection E as <-. eexists. split; [reflexivity|].
  assert (stays h (mkHeap (hvals h) (<[r:=mset k op gm]> (hmaps h)))) as Hst by (by apply stays_vals).
  split; [|split; [done|split; [|done]]].
  - unfold set_key. rewrite <- (app_nil_r (<[n:=_]> bs)). eapply (pic_update _ _ names names []); try done.
    + by rewrite app_nil_r.
    + apply Hp.
    + intros [r'|p'] Hl Hne; simpl; [|done]. rewrite list_lookup_insert_ne; [done|]. intros ->. by apply Hne.
    + eapply ba_obj; [apply list_lookup_insert; by eapply lookup_lt_Some|by apply msorted_mset|].
      apply entries_set; [by eapply entries_mono|by eapply item_at_mono].
  - eapply (stable_map_write _ r k op); [cbn [map_write]; by rewrite Hr|]. by eapply elem_of_list_lookup_2.
Qed.
Lemma place_ref full path : path ≠ [] → ∀ h names bs n r p x, pic h names bs → names !! n = Some (LMap r) → item_at h names (Some p) x →
  match place path n x bs with
  | Panic => put_loop full h (Some r) path (Some p) = Panic
  | Ok None => put_loop full h (Some r) path (Some p) = Ok (h, Some (errNotObject full))
  | Ok (Some bs') => ∃ h' extra, put_loop full h (Some r) path (Some p) = Ok (h', None) ∧
      pic h' (names ++ extra) bs' ∧ stays h h' ∧ (∀ l, l ∈ extra → EventRefine.fresh h l) ∧ stable h h' (λ l, l ∈ names)
  end.
Proof.
  induction path as [|k path IH]; intros Hne h names bs n r p x Hp Hn Hx; [done|].
  destruct path as [|k2 path].
  { cbn [place put_loop]. destruct (map_step h names bs n r k (Some p) x Hp Hn Hx) as (h' & -> & Hp' & Hst & Hsb & _).
    exists h', []. rewrite app_nil_r. split_and!; try done. intros l Hl. by apply elem_of_nil in Hl. }
  destruct (pic_map _ _ _ _ _ Hp Hn) as (gm & Hr & Hs & Hb & Hm). pose proof (entries_get _ _ _ _ k Hm) as Hk.
  rewrite place_cons. cbn [put_loop map_of]. rewrite Hr. destruct (mget k (entries bs n)) as [y|].
  - destruct Hk as (op & -> & Hy). 
    destruct Hy as [|q v t Hv Ht|q v Hv Ht Ho|q v m' Hv Ht Ho Hl|q v r' m' Hv Ht Ho Hl].
    + done.
    + cbn [deref]. rewrite Hv. rewrite (proj2 (N.eqb_neq _ _) (scalar_tree_not_object _ _ Ht)).
      apply scalar_tree_scalar in Ht. by destruct t.
    + cbn [deref]. rewrite Hv, Ht, N.eqb_refl, Ho. destruct path as [|k3 path]; done.
    + cbn [deref]. rewrite Hv, Ht. done.
    + cbn [deref]. rewrite Hv, Ht, N.eqb_refl, Ho. by apply (IH ltac:(done)).
  - rewrite Hk. set (h1 := (alloc_map h).1). set (rn := length (hmaps h)). set (h2 := (alloc_val h1 (mkObject (Some rn))).1).
    set (pn := length (hvals h)).
    assert (stays h h2) as Hst2 by (eapply (stays_trans h h1); [by apply stays_vals|apply stays_alloc]).
    assert (stable h h2 (λ l, l ∈ names)) as Hsb2.
    { eapply stable_trans; [apply (stable_alloc_map h)|apply (stable_alloc_val h1)]. }
    assert (pic h2 (names ++ [LMap rn]) (bs ++ [BxObj []])) as Hp2.
    { eapply pic_grow; [exact Hp|exact Hst2| | |].
      - eapply pic_fresh_NoDup; [exact Hp|]. simpl. done.
      - intros [r'|p'] Hl; apply (pic_allocated _ _ _ _ Hp) in Hl; simpl in Hl |- *; by rewrite lookup_app_l.
      - apply Forall2_cons. split; [|constructor]. apply (ba_obj _ _ _ []); [|done|constructor]. simpl. rewrite lookup_app_r by done. by rewrite Nat.sub_diag. }
    assert (length names = length bs) as Hlen by (symmetry; by eapply pic_length).
    assert (names !! n = Some (LMap r) → (names ++ [LMap rn]) !! n = Some (LMap r)) as Hn2 by (intros; by apply lookup_app_l_Some).
    assert ((names ++ [LMap rn]) !! length bs = Some (LMap rn)) as Hnew by (rewrite lookup_app_r by lia; rewrite Hlen, Nat.sub_diag; done).
    assert (item_at h2 (names ++ [LMap rn]) (Some pn) (IObj (length bs))) as Hit.
    { eapply (ia_obj _ _ _ (mkObject (Some rn))); [|done|done|exact Hnew]. simpl. rewrite lookup_app_r by done. by rewrite Nat.sub_diag. }
    destruct (map_step h2 _ _ n r k (Some pn) _ Hp2 (Hn2 Hn) Hit) as (h3 & Hw & Hp3 & Hst3 & Hsb3 & _).
    assert (set_key n k (IObj (length bs)) (bs ++ [BxObj []]) = set_key n k (IObj (length bs)) bs ++ [BxObj []]) as Esk.
    { unfold set_key. assert (n < length bs) as Hlt by (rewrite <- Hlen; by eapply lookup_lt_Some).
      rewrite insert_app_l by done. f_equal. f_equal. f_equal. unfold entries. by rewrite lookup_app_l. }
    rewrite Esk in Hp3. change (alloc_map h) with (h1, rn). cbv beta iota. change (alloc_val h1 (mkObject (Some rn))) with (h2, pn). cbv beta iota.
    rewrite Hw.
    assert (stays h h3) as Hst13 by (by eapply stays_trans).
    pose proof (IH ltac:(done) h3 _ _ (length bs) rn p x Hp3 Hnew) as G.
    destruct (place_empty (k2 :: path) x ltac:(done) (length bs) (set_key n k (IObj (length bs)) bs ++ [BxObj []])) as [bs' Hbs'].
    { unfold set_key. rewrite app_length, insert_length. simpl. lia. }
    { unfold entries. rewrite lookup_app_r; unfold set_key; rewrite insert_length; [by rewrite Nat.sub_diag|lia]. }
    rewrite Hbs' in G |- *. destruct G as (h' & extra & Hput & Hp' & Hst' & Hex & Hsb').
    { eapply item_at_mono; [exact Hst13|by eexists|done]. }
    exists h', (LMap rn :: extra). split; [exact Hput|]. rewrite <- (assoc_L (++)) in Hp'. split; [exact Hp'|].
    assert (stable h h3 (λ l, l ∈ names)) as Hsb13.
    { eapply stable_trans_fresh; [exact Hsb2|exact Hsb3|]. intros l [Hl|Hl]%elem_of_app; [by left|].
      apply elem_of_list_singleton in Hl as ->. right. simpl. done. }
    split; [by eapply stays_trans|]. split.
    + intros l [->|Hl]%elem_of_cons; [simpl; done|]. eapply fresh_back; [exact Hsb13|]. by apply Hex.
    + eapply stable_trans_fresh; [exact Hsb13|exact Hsb'|]. intros l [Hl|Hl]%elem_of_app; [by left|].
      apply elem_of_list_singleton in Hl as ->. right. simpl. done.
Qed.
