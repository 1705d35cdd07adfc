(** * Go [map[string]T]: canonical finite maps with string keys.

    A Go map is represented by the list of its entries sorted by strictly
    increasing key (byte order), which makes equality of maps Leibniz equality.
    Iteration order is therefore not part of the representation; where the code
    ranges over a map and the order could matter, the model quantifies over all
    orders explicitly. *)
From Verif Require Export GoBase.

Notation gomap A := (list (string * A)) (only parsing).

(** [m[k]] with the comma-ok form. *)
Fixpoint mget {A} (k : string) (m : gomap A) : option A :=
  match m with
  | [] => None
  | (k', v) :: m' => if String.eqb k k' then Some v else mget k m'
  end.

(** [m[k] = v]. *)
Fixpoint mset {A} (k : string) (v : A) (m : gomap A) : gomap A :=
  match m with
  | [] => [(k, v)]
  | (k', v') :: m' =>
      match String.compare k k' with
      | Eq => (k, v) :: m'
      | Lt => (k, v) :: (k', v') :: m'
      | Gt => (k', v') :: mset k v m'
      end
  end.

(** [delete(m, k)]. *)
Fixpoint mdel {A} (k : string) (m : gomap A) : gomap A :=
  match m with
  | [] => []
  | (k', v') :: m' => if String.eqb k k' then mdel k m' else (k', v') :: mdel k m'
  end.

(** Build a map from entries inserted left to right (later entries win). *)
Definition mof_list {A} (l : list (string * A)) : gomap A :=
  fold_left (λ m kv, mset kv.1 kv.2 m) l [].

Definition slt (a b : string) : Prop := String.compare a b = Lt.

(** The representation invariant: strictly increasing keys. *)
Fixpoint msorted {A} (m : gomap A) : Prop :=
  match m with
  | [] => True
  | (k, _) :: m' => Forall (λ kv, slt k kv.1) m' ∧ msorted m'
  end.

Definition mkeys {A} (m : gomap A) : list string := map fst m.

(** ** Order lemmas *)
Lemma string_compare_refl s : String.compare s s = Eq.
Proof.
  induction s as [|c s IH]; simpl; [done|].
  unfold Ascii.compare. rewrite N.compare_refl. done.
Qed.

Lemma string_compare_eq s1 s2 : String.compare s1 s2 = Eq ↔ s1 = s2.
Proof.
  split; [apply String.compare_eq_iff|intros ->; apply string_compare_refl].
Qed.

Lemma slt_irrefl s : ¬ slt s s.
Proof. unfold slt. rewrite string_compare_refl. done. Qed.

Lemma slt_ne a b : slt a b → a ≠ b.
Proof. intros H ->. by apply slt_irrefl in H. Qed.

Lemma slt_trans a b c : slt a b → slt b c → slt a c.
Proof.
  unfold slt. revert b c. induction a as [|x a IH]; intros [|y b] [|z c]; simpl; try done.
  unfold Ascii.compare.
  destruct (N.compare_spec (N_of_ascii x) (N_of_ascii y)) as [Hxy|Hxy|Hxy];
    destruct (N.compare_spec (N_of_ascii y) (N_of_ascii z)) as [Hyz|Hyz|Hyz]; intros H1 H2; try done.
  - rewrite Hxy, Hyz, N.compare_refl. eauto.
  - rewrite Hxy. apply N.compare_lt_iff in Hyz. by rewrite Hyz.
  - rewrite <- Hyz. apply N.compare_lt_iff in Hxy. by rewrite Hxy.
  - assert (N_of_ascii x < N_of_ascii z)%N as H by lia.
    apply N.compare_lt_iff in H. by rewrite H.
Qed.

Lemma string_compare_gt a b : String.compare a b = Gt ↔ slt b a.
Proof.
  unfold slt. rewrite (String.compare_antisym a b).
  destruct (String.compare b a); simpl; split; congruence.
Qed.

Lemma slt_asym a b : slt a b → ¬ slt b a.
Proof. intros H1 H2. eapply slt_irrefl, slt_trans; eauto. Qed.

(** ** Map lemmas *)
Section lemmas.
  Context {A : Type}.
  Implicit Types m : gomap A.

  Lemma mget_mset_eq k v m : mget k (mset k v m) = Some v.
  Proof.
    induction m as [|[k' v'] m IH]; simpl.
    - by rewrite String.eqb_refl.
    - destruct (String.compare k k') eqn:E; simpl; rewrite ?String.eqb_refl; try done.
      destruct (String.eqb_spec k k') as [->|?]; [|done].
      by rewrite string_compare_refl in E.
  Qed.

  Lemma mget_mset_ne k k' v m : k' ≠ k → mget k' (mset k v m) = mget k' m.
  Proof.
    intros Hne. induction m as [|[k2 v2] m IH]; simpl.
    - by rewrite (proj2 (String.eqb_neq _ _) Hne).
    - destruct (String.compare k k2) eqn:E; simpl.
      + apply string_compare_eq in E as ->. by rewrite (proj2 (String.eqb_neq _ _) Hne).
      + by rewrite (proj2 (String.eqb_neq _ _) Hne).
      + by rewrite IH.
  Qed.

  Lemma mget_mset k k' v m :
    mget k' (mset k v m) = if String.eqb k' k then Some v else mget k' m.
  Proof.
    destruct (String.eqb_spec k' k) as [->|Hne];
      [apply mget_mset_eq | by apply mget_mset_ne].
  Qed.

  Lemma mget_mdel_eq k m : mget k (mdel k m) = None.
  Proof.
    induction m as [|[k' v'] m IH]; simpl; [done|].
    destruct (String.eqb_spec k k') as [->|Hne]; [done|]. simpl.
    by rewrite (proj2 (String.eqb_neq _ _) Hne).
  Qed.

  Lemma mget_mdel_ne k k' m : k' ≠ k → mget k' (mdel k m) = mget k' m.
  Proof.
    intros Hne. induction m as [|[k2 v2] m IH]; simpl; [done|].
    destruct (String.eqb_spec k k2) as [->|Hne2]; simpl.
    - by rewrite IH, (proj2 (String.eqb_neq _ _) Hne).
    - by rewrite IH.
  Qed.

  Lemma Forall_slt_mset k0 k v m :
    slt k0 k → Forall (λ kv : string * A, slt k0 kv.1) m →
    Forall (λ kv : string * A, slt k0 kv.1) (mset k v m).
  Proof.
    intros Hk. induction m as [|[k' v'] m IH]; simpl; intros HF.
    - by repeat constructor.
    - inversion HF; subst. destruct (String.compare k k'); repeat constructor; eauto.
  Qed.

  Lemma msorted_mset k v m : msorted m → msorted (mset k v m).
  Proof.
    induction m as [|[k' v'] m IH]; simpl.
    - intros _. split; [constructor|done].
    - intros [HF Hs]. destruct (String.compare k k') eqn:E; simpl.
      + apply string_compare_eq in E as ->. done.
      + split; [|done]. constructor; [done|].
        eapply Forall_impl; [exact HF|]. intros kv. by apply slt_trans.
      + split; [|auto]. apply Forall_slt_mset; [by apply string_compare_gt|done].
  Qed.

  Lemma msorted_mdel k m : msorted m → msorted (mdel k m).
  Proof.
    induction m as [|[k' v'] m IH]; simpl; [done|]. intros [HF Hs].
    destruct (String.eqb k k'); [auto|]. simpl. split; [|auto].
    clear -HF. induction HF as [|[k2 v2] m Hk HF IH]; simpl; [constructor|].
    destruct (String.eqb k k2); [done|constructor; done].
  Qed.

  Lemma mget_lt_None k m : Forall (λ kv : string * A, slt k kv.1) m → mget k m = None.
  Proof.
    induction 1 as [|[k' v'] m Hk HF IH]; simpl; [done|].
    simpl in Hk. apply slt_ne, String.eqb_neq in Hk as ->. done.
  Qed.

  Lemma mget_Some_In k v m : mget k m = Some v → In (k, v) m.
  Proof.
    induction m as [|[k' v'] m IH]; simpl; [done|].
    destruct (String.eqb_spec k k') as [->|?]; intros; simplify_eq; auto.
  Qed.

  Lemma mget_In k v m : msorted m → In (k, v) m → mget k m = Some v.
  Proof.
    induction m as [|[k' v'] m IH]; simpl; [done|].
    intros [HF Hs] [H|H]; simplify_eq.
    - by rewrite String.eqb_refl.
    - destruct (String.eqb_spec k k') as [->|?]; [|auto].
      exfalso. rewrite List.Forall_forall in HF. by apply HF, slt_irrefl in H.
  Qed.

  Lemma mget_None_In k m : mget k m = None ↔ ¬ In k (mkeys m).
  Proof.
    unfold mkeys. induction m as [|[k' v'] m IH]; simpl; [naive_solver|].
    destruct (String.eqb_spec k k') as [->|Hne]; [naive_solver|].
    rewrite IH. naive_solver.
  Qed.

  Lemma msorted_NoDup m : msorted m → NoDup (mkeys m).
  Proof.
    unfold mkeys. induction m as [|[k v] m IH]; simpl; [constructor|].
    intros [HF Hs]. constructor; [|auto].
    rewrite elem_of_list_In, in_map_iff. intros ([k' v'] & ? & HI); simplify_eq/=.
    rewrite List.Forall_forall in HF. by apply HF, slt_irrefl in HI.
  Qed.

  (** Canonicity: two sorted lists with the same lookups are equal. *)
  Lemma gomap_ext m1 m2 :
    msorted m1 → msorted m2 → (∀ k, mget k m1 = mget k m2) → m1 = m2.
  Proof.
    revert m2. induction m1 as [|[k1 v1] m1 IH]; intros [|[k2 v2] m2]; simpl; intros Hs1 Hs2 Hext.
    - done.
    - specialize (Hext k2). rewrite String.eqb_refl in Hext. done.
    - specialize (Hext k1). rewrite String.eqb_refl in Hext. done.
    - destruct Hs1 as [HF1 Hs1], Hs2 as [HF2 Hs2].
      destruct (String.compare k1 k2) eqn:E.
      + apply string_compare_eq in E as ->.
        pose proof (Hext k2) as H. rewrite String.eqb_refl in H. simplify_eq.
        f_equal. apply IH; [done..|]. intros k. specialize (Hext k).
        destruct (decide (k = k2)) as [->|Hne]; [by rewrite !mget_lt_None|].
        by rewrite (proj2 (String.eqb_neq _ _) Hne) in Hext.
      + specialize (Hext k1). rewrite String.eqb_refl in Hext.
        rewrite (proj2 (String.eqb_neq k1 k2)) in Hext by (by apply slt_ne).
        rewrite mget_lt_None in Hext; [done|].
        eapply Forall_impl; [exact HF2|]. intros kv. by apply slt_trans.
      + apply string_compare_gt in E. specialize (Hext k2). rewrite String.eqb_refl in Hext.
        rewrite (proj2 (String.eqb_neq k2 k1)) in Hext by (by apply slt_ne).
        rewrite mget_lt_None in Hext; [done|].
        eapply Forall_impl; [exact HF1|]. intros kv. by apply slt_trans.
  Qed.

  Lemma msorted_fold_mset (l : list (string * A)) m :
    msorted m → msorted (fold_left (λ m kv, mset kv.1 kv.2 m) l m).
  Proof.
    revert m. induction l as [|kv l IH]; simpl; intros m Hm; [done|].
    by apply IH, msorted_mset.
  Qed.

  Lemma msorted_mof_list (l : list (string * A)) : msorted (mof_list l).
  Proof. by apply msorted_fold_mset. Qed.

  Lemma mget_fold_mset_notin k (l : list (string * A)) m :
    ¬ In k (map fst l) → mget k (fold_left (λ m kv, mset kv.1 kv.2 m) l m) = mget k m.
  Proof.
    revert m. induction l as [|[k' v'] l IH]; simpl; intros m Hni; [done|].
    rewrite IH by naive_solver. apply mget_mset_ne. naive_solver.
  Qed.

  Lemma mget_fold_mset_in k v (l : list (string * A)) m :
    NoDup (map fst l) → In (k, v) l →
    mget k (fold_left (λ m kv, mset kv.1 kv.2 m) l m) = Some v.
  Proof.
    revert m. induction l as [|[k' v'] l IH]; simpl; intros m Hnd Hin; [done|].
    inversion Hnd as [|?? Hni Hnd']; subst. rewrite elem_of_list_In in Hni.
    destruct Hin as [Heq|Hin]; [|by apply IH].
    simplify_eq. rewrite mget_fold_mset_notin by done. apply mget_mset_eq.
  Qed.

  (** Rebuilding a map from its entries in any order gives the same map. *)
  Lemma mof_list_perm m l : msorted m → Permutation l m → mof_list l = m.
  Proof.
    intros Hs Hp. apply gomap_ext; [apply msorted_mof_list|done|].
    assert (NoDup (map fst l)) as Hnd.
    { rewrite Hp. by apply msorted_NoDup. }
    intros k. unfold mof_list. destruct (mget k m) as [v|] eqn:E.
    - apply mget_fold_mset_in; [done|].
      eapply Permutation_in; [symmetry; exact Hp|]. by apply mget_Some_In.
    - rewrite mget_fold_mset_notin; [done|].
      apply mget_None_In in E. intros Hin. apply E. unfold mkeys.
      eapply Permutation_in; [|exact Hin]. by apply Permutation_map.
  Qed.

  Lemma mof_list_sorted m : msorted m → mof_list m = m.
  Proof. intros. by apply mof_list_perm. Qed.
End lemmas.

Lemma msorted_map {A B} (f : A → B) (m : gomap A) :
  msorted m → msorted (map (λ kv, (kv.1, f kv.2)) m).
Proof.
  induction m as [|[k v] m IH]; simpl; [done|]. intros [HF Hs]. split; [|auto].
  clear -HF. induction HF; simpl; constructor; done.
Qed.

Lemma mget_map {A B} (f : A → B) k (m : gomap A) :
  mget k (map (λ kv, (kv.1, f kv.2)) m) = f <$> mget k m.
Proof.
  induction m as [|[k' v] m IH]; simpl; [done|]. destruct (String.eqb k k'); done.
Qed.
