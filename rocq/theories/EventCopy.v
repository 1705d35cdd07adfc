(** * Put of a value that may share containers with the event.

    [put_loop_ref] (EventRefine.v) needs value and event to be disjoint.  Here the
    value may live inside the event (copying a field, appending in place). *)
From Verif Require Export EventFacts.

(** The maps a Put along a path passes through. *)
Inductive spine (h : heap) : mref → list string → mref → Prop :=
| spine_here r path : spine h r path r
| spine_next r k k2 rest gm q v ri rw :
    hmaps h !! r = Some gm → mget k gm = Some (Some q) → hvals h !! q = Some v →
    v_obj v = Some ri → spine h ri (k2 :: rest) rw → spine h r (k :: k2 :: rest) rw.

(** The event reads as [m]; containers may be shared. *)
Definition ev_shows (h : heap) (e : event) (m : gomap tree) : Prop :=
  match fields e with
  | None => m = []
  | Some r => ∃ gm fps, hmaps h !! r = Some gm ∧ msorted gm ∧ rep_assoc h gm m fps
  end.

Lemma ev_rep_shows h e m fp : ev_rep h e m fp → ev_shows h e m.
Proof.
  unfold ev_rep, ev_shows. destruct (fields e); [|by intros [-> _]].
  intros (gm & fps & ? & ? & ? & _). eauto.
Qed.

Lemma mset_same {A} k op (gm : gomap A) :
  msorted gm → mget k gm = Some op → mset k op gm = gm.
Proof.
  intros Hs Hk. apply gomap_ext; [by apply msorted_mset|done|]. intros k'.
  rewrite mget_mset. case_match eqn:Ek; [|done]. by apply String.eqb_eq in Ek as ->.
Qed.

Lemma rep_TObj h q m fp :
  rep h (Some q) (TObj m) fp →
  ∃ v ri gmi fpi, hvals h !! q = Some v ∧ v_type v = ObjectType ∧ v_obj v = Some ri ∧
    hmaps h !! ri = Some gmi ∧ msorted gmi ∧ rep_assoc h gmi m fpi ∧ fp = LMap ri :: fpi.
Proof.
  intros H. inversion H; simplify_eq.
  { match goal with H : scalar_tree _ = _ |- _ => by apply scalar_tree_scalar in H end. }
  eauto 12.
Qed.

Lemma NoDup_focus {A} (r : A) fps fp rest :
  fps ≡ₚ fp ++ rest → NoDup (r :: fps) →
  r ∉ fp ∧ r ∉ rest ∧ NoDup fp ∧ NoDup rest ∧ ∀ l, l ∈ fp → l ∉ rest.
Proof.
  intros Hp Hn. apply NoDup_cons in Hn as [Hr Hn]. rewrite Hp in Hr, Hn.
  apply NoDup_app in Hn as (A1 & A2 & A3). set_solver.
Qed.

Lemma spine_in h r path rw gm m fps :
  spine h r path rw → hmaps h !! r = Some gm → rep_assoc h gm m fps → LMap rw ∈ LMap r :: fps.
Proof.
  intros Hsp. revert gm m fps.
  induction Hsp as [r path|r k k2 path gm q v ri rw Hr Hk Hq Hobj Hsp IH];
    intros gmi mi fpi Hri Hai; [set_solver|]. simplify_eq.
  assert (∃ t fp, rep h (Some q) t fp ∧ fp ⊆ fpi) as (t & fp & Hrep & Hsub).
  { clear -Hai Hk. induction Hai as [|k' op' gm t m fp fps Hrep Ha IH]; [done|].
    simpl in *. case_match.
    - simplify_eq. exists t, fp. set_solver.
    - destruct (IH Hk) as (t1 & fp1 & ? & ?). exists t1, fp1. set_solver. }
  inversion Hrep; simplify_eq.
  { match goal with H : scalar_tree _ = _ |- _ => apply scalar_tree_obj in H end. congruence. }
  apply elem_of_cons. right. apply Hsub. eapply IH; eauto.
Qed.

Lemma put_loop_spine full path h r gm m fps p tv0 m0 :
  hmaps h !! r = Some gm → msorted gm → rep_assoc h gm m fps → path ≠ [] →
  NoDup (LMap r :: fps) → tput path tv0 m = Ok (Some m0) →
  ∃ h' rw rest, put_loop full h (Some r) path (Some p) = Ok (h', None) ∧
    spine h r path rw ∧ stable h h' (λ l, l = LMap rw) ∧
    NoDup (LMap r :: rest) ∧ (∀ l, l ∈ rest → l ∈ fps ∨ fresh h l) ∧
    (∀ q t fpq, get_loop h (Some r) path = Ok (Some q) → rep h (Some q) t fpq →
       ∀ l, l ∈ fpq → l ∉ rest) ∧
    (∀ h'' W tv fpv m', stable h' h'' W → (∀ l, l ∈ LMap r :: rest → ¬ W l) →
       rep h'' (Some p) tv fpv → tput path tv m = Ok (Some m') →
       ∃ gm' fps', hmaps h'' !! r = Some gm' ∧ msorted gm' ∧ rep_assoc h'' gm' m' fps' ∧
         fps' ≡ₚ fpv ++ rest ∧ get_loop h'' (Some r) path = Ok (Some p)).
Proof.
  revert h r gm m fps m0. induction path as [|k path IH];
    intros h r gm m fps m0 Hr Hs Ha Hne Hnd Htp; [done|].
  destruct path as [|k2 path].
  { cbn [put_loop]. rewrite (map_write_Some _ _ _ _ _ Hr). set (h' := mkHeap _ _).
    assert (stable h h' (λ l, l = LMap r)) as Hst.
    { eapply stable_map_write; [by apply map_write_Some|done]. }
    assert (hmaps h' !! r = Some (mset k (Some p) gm)) as Hr'.
    { simpl. apply list_lookup_insert. by eapply lookup_lt_Some. }
    assert (∀ h'' (W : loc → Prop), stable h' h'' W → ¬ W (LMap r) →
              hmaps h'' !! r = Some (mset k (Some p) gm)) as Hr''.
    { intros h'' W (_ & G & _) HW. destruct (G _ _ Hr') as [?|?]; done. }
    destruct (mget k gm) as [op|] eqn:Hk.
    - destruct (rep_assoc_focus _ _ _ _ _ _ Ha Hs Hk) as (t & fp & rest & Hm & Hrep & Hperm & Hrec).
      destruct (NoDup_focus _ _ _ _ Hperm Hnd) as (N1 & N2 & N3 & N4 & N5).
      exists h', r, rest. split; [done|]. split; [constructor|]. split; [done|].
      split; [by apply NoDup_cons|]. split; [intros l Hl; left; rewrite Hperm; set_solver|].
      split.
      { intros q t' fpq. cbn [get_loop]. rewrite (map_of_Some _ _ _ Hr), Hk. intros [= ->] Hq.
        destruct (proj1 (rep_fun_all h) _ _ _ Hrep _ _ Hq) as [-> ->]. done. }
      intros h'' W tv fpv m' Hst2 HW Hv Ht. cbn [tput] in Ht. injection Ht as <-.
      assert (stable h h'' (λ l, l = LMap r ∨ W l)) as Hst3.
      { eapply stable_trans; eapply stable_weaken; [exact Hst|auto|exact Hst2|auto]. }
      destruct (Hrec h'' _ (Some p) tv fpv Hst3) as (fps' & Ha' & Hp').
      { intros l Hl [->|Hw]; [done|]. eapply HW; [|exact Hw]. set_solver. }
      { done. }
      pose proof (Hr'' h'' W Hst2 ltac:(apply HW; set_solver)) as Hr2.
      exists (mset k (Some p) gm), fps'. split; [done|]. split; [by apply msorted_mset|].
      split; [done|]. split; [done|].
      cbn [get_loop]. by rewrite (map_of_Some _ _ _ Hr2), mget_mset_eq.
    - exists h', r, fps. split; [done|]. split; [constructor|]. split; [done|]. split; [done|].
      split; [auto|]. split.
      { intros q t' fpq. cbn [get_loop]. rewrite (map_of_Some _ _ _ Hr), Hk. done. }
      intros h'' W tv fpv m' Hst2 HW Hv Ht. cbn [tput] in Ht. injection Ht as <-.
      assert (stable h h'' (λ l, l = LMap r ∨ W l)) as Hst3.
      { eapply stable_trans; eapply stable_weaken; [exact Hst|auto|exact Hst2|auto]. }
      destruct (rep_assoc_insert _ _ _ _ _ Ha Hk h'' _ (Some p) tv fpv Hst3) as (fps' & Ha' & Hp').
      { apply NoDup_cons in Hnd as [Hnd _].
        intros l Hl [->|Hw]; [done|]. eapply HW; [|exact Hw]. set_solver. }
      { done. }
      pose proof (Hr'' h'' W Hst2 ltac:(apply HW; set_solver)) as Hr2.
      exists (mset k (Some p) gm), fps'. split; [done|]. split; [by apply msorted_mset|].
      split; [done|]. split; [done|].
      cbn [get_loop]. by rewrite (map_of_Some _ _ _ Hr2), mget_mset_eq. }
  rewrite tput_cons in Htp. rewrite put_loop_cons, (map_of_Some _ _ _ Hr).
  destruct (mget k gm) as [op|] eqn:Hk.
  - destruct (rep_assoc_focus _ _ _ _ _ _ Ha Hs Hk) as (t & fp & frest & Hm & Hrep & Hperm & Hrec).
    rewrite Hm in Htp. destruct (is_object_dec t) as [[mi ->]|Hno].
    2:{ exfalso. destruct t; try done; destruct Hno; exact I. }
    destruct op as [q|]; [|by apply rep_None in Hrep].
    destruct (rep_TObj _ _ _ _ Hrep) as (v & ri & gmi & fpi & Hp & Hty & Hobj & Hri & Hsi & Hai & ->).
    cbn [deref]. rewrite Hp, Hty, Hobj, N.eqb_refl.
    destruct (tput (k2 :: path) tv0 mi) as [[mi0|]|] eqn:Ei; try done.
    destruct (NoDup_focus _ _ _ _ Hperm Hnd) as (N1 & N2 & N3 & N4 & N5).
    destruct (IH h ri gmi mi fpi mi0 Hri Hsi Hai ltac:(done) N3 Ei)
      as (h' & rw & rest & Hput & Hsp & Hst & Hndr & Hrl & Hold & Hfin).
    assert (∀ l, l ∈ frest → allocated h l) as Hall.
    { intros l Hl. eapply rep_assoc_alloc; [exact Ha|]. rewrite Hperm. set_solver. }
    assert (∀ l, l ∈ rest → l ∉ frest ∧ l ≠ LMap r) as Hrest.
    { intros l Hl. destruct (Hrl _ Hl) as [Hl2|Hf].
      - split; [apply N5; set_solver|]. set_solver.
      - split; [intros Hl2; by eapply not_fresh_allocated; [apply Hall|]|].
        intros ->. simpl in Hf. apply lookup_lt_Some in Hr. lia. }
    assert (LMap rw ∈ LMap ri :: fpi) as Hrw.
    { by eapply spine_in. }
    assert (LMap rw ∉ frest ∧ LMap rw ≠ LMap r) as [Hrwf Hrwr].
    { split; [by apply N5|]. intros E. rewrite E in Hrw. done. }
    exists h', rw, (LMap ri :: rest ++ frest).
    split; [done|]. split; [by eapply spine_next|]. split; [done|]. split.
    { apply NoDup_cons. split.
      - rewrite elem_of_cons, elem_of_app. intros [E|[Hl|Hl]]; [|by apply (Hrest _ Hl)|done].
        apply N1. rewrite E. set_solver.
      - apply NoDup_cons in Hndr as [B1 B2]. apply NoDup_cons. split.
        + rewrite elem_of_app. intros [?|Hl]; [done|]. eapply N5; [|exact Hl]. set_solver.
        + apply NoDup_app. split; [done|]. split; [|done]. intros l Hl. by apply Hrest. }
    split.
    { intros l. rewrite elem_of_cons, elem_of_app. intros [->|[Hl|Hl]].
      - left. rewrite Hperm. set_solver.
      - destruct (Hrl _ Hl); [left; rewrite Hperm; set_solver|by right].
      - left. rewrite Hperm. set_solver. }
    split.
    { intros q' t' fpq. rewrite get_loop_cons, (map_of_Some _ _ _ Hr), Hk. cbn [deref].
      rewrite Hp, Hobj, (map_of_Some _ _ _ Hri). destruct gmi as [|e0 gmi]; [done|].
      intros Hg Hq l Hl. pose proof (Hold _ _ _ Hg Hq l Hl) as Hl2.
      assert (l ∈ fpi) as Hl3.
      { pose proof (get_loop_ref (k2 :: path) h ri (e0 :: gmi) mi fpi Hri Hsi Hai ltac:(done)) as G.
        rewrite Hg in G. destruct (tget (k2 :: path) mi) as [[tq|]|]; [|done|done].
        destruct G as (p1 & fp1 & [= <-] & Hq1 & Hsub).
        destruct (proj1 (rep_fun_all h) _ _ _ Hq _ _ Hq1) as [-> ->].
        by eapply elem_of_submseteq; [|apply sublist_submseteq]. }
      rewrite elem_of_cons, elem_of_app. intros [->|[?|Hl4]]; [|done|].
      - apply NoDup_cons in N3 as [N3 _]. done.
      - eapply N5; [|exact Hl4]. set_solver. }
    intros h'' W tv fpv m' Hst2 HW Hv Ht.
    rewrite tput_cons, Hm in Ht. destruct (tput (k2 :: path) tv mi) as [[mi'|]|] eqn:Ei'; try done.
    injection Ht as <-.
    destruct (Hfin h'' W tv fpv mi' Hst2) as (gmi' & fpi' & Hri' & Hsi' & Hai' & Hpi & Hgp); [|done|done|].
    { intros l Hl. apply HW. set_solver. }
    assert (stable h h'' (λ l, l = LMap rw ∨ W l)) as Hst3.
    { eapply stable_trans; eapply stable_weaken; [exact Hst|auto|exact Hst2|auto]. }
    assert (hmaps h'' !! r = Some gm) as Hr'.
    { destruct Hst3 as (_ & G & _). destruct (G _ _ Hr) as [?|[HW2|HW2]]; [done|congruence|].
      exfalso. eapply HW; [|exact HW2]. set_solver. }
    assert (hvals h'' !! q = Some v) as Hq'.
    { destruct Hst3 as (G & _). destruct (G _ _ Hp) as [?|[_ HW2]]; [done|].
      rewrite Hty in HW2. done. }
    assert (rep h'' (Some q) (TObj mi') (LMap ri :: fpi')) as Hrep'.
    { eapply rep_obj; eauto. }
    destruct (Hrec h'' _ (Some q) (TObj mi') (LMap ri :: fpi') Hst3) as (fps' & Ha' & Hp').
    { intros l Hl [->|Hw]; [done|]. eapply HW; [|exact Hw]. set_solver. }
    { done. }
    rewrite mset_same in Ha' by done.
    exists gm, fps'. split; [done|]. split; [done|]. split; [done|]. split.
    { rewrite Hp', Hpi. simpl. rewrite <-(assoc_L (++)). by rewrite Permutation_middle. }
    rewrite get_loop_cons, (map_of_Some _ _ _ Hr'), Hk. cbn [deref].
    rewrite Hq', Hobj, (map_of_Some _ _ _ Hri'). destruct gmi' as [|e0 gmi']; [|done].
    exfalso. rewrite (get_loop_empty _ _ _ Hri') in Hgp. done.
  - (* new objects below a missing name *)
    rewrite (proj1 (rep_assoc_None _ _ _ _ k Ha) Hk) in Htp. cbn [alloc_map alloc_val].
    set (r1 := length (hmaps h)). set (q := length (hvals h)).
    assert (r1 = length (hmaps h)) as Er1 by done.
    assert (q = length (hvals h)) as Eq by done.
    set (h2 := mkHeap (hvals h ++ [mkObject (Some r1)]) (hmaps h ++ [[]])).
    assert (r < r1) as Hrlt by (by eapply lookup_lt_Some).
    assert (hmaps h2 !! r = Some gm) as Hr2.
    { simpl. by apply lookup_app_l_Some. }
    cbn [hvals hmaps]. fold h2.
    rewrite (map_write_Some _ _ _ _ _ Hr2). set (h3 := mkHeap _ _).
    assert (stable h h3 (λ l, l = LMap r)) as Hst03.
    { eapply (stable_trans h h2 h3).
      - eapply stable_trans; [apply (stable_alloc_map h)|].
        apply (stable_alloc_val (alloc_map h).1 (mkObject (Some r1))).
      - eapply stable_map_write; [by apply map_write_Some|done]. }
    assert (hmaps h3 !! r1 = Some []) as Hr1.
    { simpl. rewrite list_lookup_insert_ne by lia. rewrite lookup_app_r by apply Nat.le_refl.
      unfold r1. by rewrite Nat.sub_diag. }
    assert (hmaps h3 !! r = Some (mset k (Some q) gm)) as Hr3.
    { simpl. apply list_lookup_insert. rewrite app_length. simpl. lia. }
    assert (hvals h3 !! q = Some (mkObject (Some r1))) as Hq.
    { simpl. rewrite lookup_app_r by lia. unfold q. by rewrite Nat.sub_diag. }
    destruct (tput (k2 :: path) tv0 []) as [[mi0|]|] eqn:Ei; try done.
    destruct (IH h3 r1 [] [] [] mi0 Hr1 I ltac:(constructor) ltac:(done)
                ltac:(apply NoDup_singleton) Ei)
      as (h' & rw & rest & Hput & Hsp & Hst & Hndr & Hrl & Hold & Hfin).
    assert (rw = r1) as ->.
    { clear -Hsp Hr1. inversion Hsp; [done|]. simplify_eq. }
    assert (stable h h' (λ l, l = LMap r)) as Hst0.
    { eapply stable_trans_fresh; [exact Hst03|exact Hst|].
      intros l ->. right; simpl; lia. }
    assert (∀ l, l ∈ rest → fresh h l ∧ l ≠ LMap r1) as Hrest.
    { intros l Hl. split.
      - destruct (Hrl _ Hl) as [Hl2|Hf]; [by apply elem_of_nil in Hl2|].
        destruct l; simpl in *; rewrite ?insert_length, ?app_length in Hf; simpl in *; lia.
      - intros ->. by apply NoDup_cons in Hndr as [? _]. }
    assert (∀ l, l ∈ fps → allocated h l) as Hall.
    { intros l Hl. by eapply rep_assoc_alloc. }
    exists h', r, (LMap r1 :: rest ++ fps).
    split; [done|]. split; [constructor|]. split; [done|].
    apply NoDup_cons in Hnd as [Hrn Hnd]. split.
    { apply NoDup_cons. split.
      - rewrite elem_of_cons, elem_of_app. intros [[= ?]|[Hl|Hl]]; [lia| |done].
        destruct (Hrest _ Hl) as [Hf _]. simpl in Hf. lia.
      - apply NoDup_cons in Hndr as [B1 B2]. apply NoDup_cons. split.
        + rewrite elem_of_app. intros [?|Hl]; [done|]. apply Hall in Hl. simpl in Hl. lia.
        + apply NoDup_app. split; [done|]. split; [|done]. intros l Hl Hl2.
          eapply not_fresh_allocated; [by apply Hall|]. by apply Hrest. }
    split.
    { intros l. rewrite elem_of_cons, elem_of_app. intros [->|[Hl|Hl]].
      - right. simpl. lia.
      - right. by apply Hrest.
      - by left. }
    split.
    { intros q' t' fpq. rewrite get_loop_cons, (map_of_Some _ _ _ Hr), Hk. done. }
    intros h'' W tv fpv m' Hst2 HW Hv Ht.
    rewrite tput_cons, (proj1 (rep_assoc_None _ _ _ _ k Ha) Hk) in Ht.
    destruct (tput (k2 :: path) tv []) as [[mi'|]|] eqn:Ei'; try done. injection Ht as <-.
    destruct (Hfin h'' W tv fpv mi' Hst2) as (gmi' & fpi' & Hri' & Hsi' & Hai' & Hpi & Hgp); [|done|done|].
    { intros l Hl. apply HW. set_solver. }
    assert (stable h h'' (λ l, l = LMap r ∨ W l)) as Hst3.
    { eapply stable_trans; eapply stable_weaken; [exact Hst0|auto|exact Hst2|auto]. }
    assert (stable h3 h'' (λ l, l = LMap r1 ∨ W l)) as Hst4.
    { eapply stable_trans; eapply stable_weaken; [exact Hst|auto|exact Hst2|auto]. }
    assert (hmaps h'' !! r = Some (mset k (Some q) gm)) as Hr'.
    { destruct Hst4 as (_ & G & _). destruct (G _ _ Hr3) as [?|[[= ?]|HW2]]; [done|lia|].
      exfalso. eapply HW; [|exact HW2]. set_solver. }
    assert (hvals h'' !! q = Some (mkObject (Some r1))) as Hq'.
    { destruct Hst4 as (G & _). destruct (G _ _ Hq) as [?|[_ HW2]]; [done|]. done. }
    assert (rep h'' (Some q) (TObj mi') (LMap r1 :: fpi')) as Hrep'.
    { eapply rep_obj; eauto. }
    destruct (rep_assoc_insert _ _ _ _ _ Ha Hk h'' _ (Some q) (TObj mi') (LMap r1 :: fpi') Hst3)
        as (fps' & Ha' & Hp').
    { intros l Hl [->|Hw]; [done|]. eapply HW; [|exact Hw]. set_solver. }
    { done. }
    exists (mset k (Some q) gm), fps'. split; [done|]. split; [by apply msorted_mset|].
    split; [done|]. split.
    { rewrite Hp', Hpi. simpl. rewrite <-(assoc_L (++)). by rewrite Permutation_middle. }
    rewrite get_loop_cons, (map_of_Some _ _ _ Hr'), mget_mset_eq. cbn [deref].
    rewrite Hq'. cbn [v_obj mkObject]. rewrite (map_of_Some _ _ _ Hri').
    destruct gmi' as [|e0 gmi']; [|done].
    exfalso. rewrite (get_loop_empty _ _ _ Hri') in Hgp. done.
Qed.
