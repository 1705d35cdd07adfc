(** * Event-level consequences of [put_loop_spine]. *)
From Verif Require Export EventCopy.

Lemma rep_assoc_pick h gm m fps k op :
  rep_assoc h gm m fps → mget k gm = Some op →
  ∃ t fp, mget k m = Some t ∧ rep h op t fp ∧ sublist fp fps.
Proof.
  intros Ha Hk. induction Ha as [|k' op' gm t m fp fps Hrep Ha IH]; [done|].
  simpl in *. case_match.
  - simplify_eq. exists t, fp. split_and!; try done. by apply sublist_inserts_r.
  - destruct (IH Hk) as (t1 & fp1 & ? & ? & ?). exists t1, fp1. split_and!; try done.
    by apply sublist_inserts_l.
Qed.

Lemma sublist_elem {A} (l1 l2 : list A) x : sublist l1 l2 → x ∈ l1 → x ∈ l2.
Proof. intros H Hx. by eapply elem_of_submseteq; [|apply sublist_submseteq]. Qed.

Lemma get_loop_fp h r gm m fps path p t fpt :
  hmaps h !! r = Some gm → msorted gm → rep_assoc h gm m fps → path ≠ [] →
  get_loop h (Some r) path = Ok (Some p) → rep h (Some p) t fpt → sublist fpt fps.
Proof.
  intros Hr Hs Ha Hne Hg Hp.
  pose proof (get_loop_ref path h r gm m fps Hr Hs Ha Hne) as G. rewrite Hg in G.
  destruct (tget path m) as [[tq|]|]; [|done|done].
  destruct G as (p1 & fp1 & [= <-] & Hq1 & Hsub).
  by destruct (proj1 (rep_fun_all h) _ _ _ Hp _ _ Hq1) as [-> ->].
Qed.

(** The map a Put writes to is not part of a value read from a path that does
    not strictly contain the written one. *)
Lemma spine_not_below path h r gm m fps rw A p t fpt :
  spine h r path rw →
  hmaps h !! r = Some gm → msorted gm → rep_assoc h gm m fps → NoDup (LMap r :: fps) →
  A ≠ [] → (∀ s, path = A ++ s → s = []) →
  get_loop h (Some r) A = Ok (Some p) → rep h (Some p) t fpt → LMap rw ∉ fpt.
Proof.
  intros Hsp. revert gm m fps A.
  induction Hsp as [r path|r k k2 path gm0 q v ri rw Hr Hk Hq Hobj Hsp IH];
    intros gm m fps A Hr' Hs Ha Hnd HA Hpre Hg Hp.
  - apply NoDup_cons in Hnd as [Hnd _]. intros Hl. apply Hnd.
    eapply sublist_elem; [|exact Hl]. by eapply get_loop_fp.
  - simplify_eq. destruct A as [|a A]; [done|].
    destruct (rep_assoc_focus _ _ _ _ _ _ Ha Hs Hk) as (tk & fpk & rest & Hm & Hrep & Hperm & _).
    destruct (NoDup_focus _ _ _ _ Hperm Hnd) as (N1 & N2 & N3 & N4 & N5).
    assert (∃ gmi mi fpi, hmaps h !! ri = Some gmi ∧ msorted gmi ∧ rep_assoc h gmi mi fpi ∧
              fpk = LMap ri :: fpi) as (gmi & mi & fpi & Hri & Hsi & Hai & ->).
    { inversion Hrep; simplify_eq.
      { match goal with H : scalar_tree _ = _ |- _ => apply scalar_tree_obj in H end. congruence. }
      do 3 eexists. split; [eassumption|]. split; [eassumption|]. split; [eassumption|reflexivity]. }
    destruct (decide (a = k)) as [->|Hak].
    + destruct A as [|a2 A].
      { exfalso. specialize (Hpre (k2 :: path) eq_refl). done. }
      rewrite get_loop_cons, (map_of_Some _ _ _ Hr), Hk in Hg. cbn [deref] in Hg.
      rewrite Hq, Hobj, (map_of_Some _ _ _ Hri) in Hg. destruct gmi as [|e0 gmi]; [done|].
      eapply (IH _ _ _ (a2 :: A) Hri Hsi Hai N3); try done. intros s Hs'. apply (Hpre s). by rewrite Hs'.
    + (* another top-level name *)
      assert (LMap rw ∈ LMap ri :: fpi) as Hrw by (by eapply spine_in).
      intros Hl.
      pose proof (get_loop_head h r _ m fps a A p Hr Hs Ha Hg) as (op & Hka & Hsub).
      destruct (rep_assoc_split h _ m fps a op Ha Hs Hka) as (ta & fpa & resta & Hma & Hra & Hpa & Hda).
      assert (LMap rw ∈ fpa) as Hla.
      { eapply sublist_elem; [|exact Hl]. by eapply Hsub. }
      destruct (NoDup_focus _ _ _ _ Hpa Hnd) as (M1 & M2 & M3 & M4 & M5).
      apply (M5 _ Hla).
      destruct (rep_assoc_pick h _ _ _ k (Some q) Hda) as (t' & fp' & _ & Hr2 & Hs2).
      { rewrite mget_mdel_ne by done. done. }
      destruct (proj1 (rep_fun_all h) _ _ _ Hrep _ _ Hr2) as [-> ->].
      by eapply sublist_elem.
Qed.

(** Putting back the very pointer that is already there changes nothing. *)
Lemma put_loop_same full path h r gm m fps p :
  hmaps h !! r = Some gm → msorted gm → rep_assoc h gm m fps → path ≠ [] →
  get_loop h (Some r) path = Ok (Some p) →
  put_loop full h (Some r) path (Some p) = Ok (h, None).
Proof.
  revert r gm m fps. induction path as [|k path IH]; intros r gm m fps Hr Hs Ha Hne Hg; [done|].
  destruct path as [|k2 path].
  - cbn [get_loop] in Hg. rewrite (map_of_Some _ _ _ Hr) in Hg.
    cbn [put_loop]. rewrite (map_write_Some _ _ _ _ _ Hr).
    destruct (mget k gm) as [op|] eqn:Hk; [|done]. injection Hg as ->.
    rewrite mset_same by done. rewrite list_insert_id by done. by destruct h.
  - rewrite get_loop_cons, (map_of_Some _ _ _ Hr) in Hg.
    rewrite put_loop_cons, (map_of_Some _ _ _ Hr).
    destruct (mget k gm) as [op|] eqn:Hk; [|done].
    destruct (rep_assoc_pick _ _ _ _ _ _ Ha Hk) as (t & fp & Hm & Hrep & _).
    destruct (deref h op) as [v|] eqn:Hd; [|done].
    destruct op as [q|]; [|done]. cbn [deref] in Hd. destruct (hvals h !! q) as [v'|] eqn:Hq; [|done].
    injection Hd as ->.
    destruct (is_object_dec t) as [[mi ->]|Hno].
    + destruct (rep_TObj _ _ _ _ Hrep) as (v' & ri & gmi & fpi & Hp & Hty & Hobj & Hri & Hsi & Hai & ->).
      simplify_eq. rewrite Hty, N.eqb_refl, Hobj. rewrite Hobj, (map_of_Some _ _ _ Hri) in Hg.
      destruct gmi as [|e0 gmi]; [done|]. by eapply IH.
    + rewrite (rep_not_object_map _ _ _ _ _ Hrep Hq Hno) in Hg. done.
Qed.

(** ** What a write does to the nested map *)

(** [m'] is [m] with the value [t] stored at [path] and nothing else changed. *)
Definition written (path : list string) (t : tree) (m m' : gomap tree) : Prop :=
  (∀ sub, tlookup (path ++ sub) m' = tsub sub t) ∧
  (∀ q, disjoint_paths path q → tlookup q m' = tlookup q m) ∧
  (∀ q sub, path = q ++ sub → sub ≠ [] → ∃ mi, tlookup q m' = Some (TObj mi)).

(** What Put of a value reading [t] must do: the three documented outcomes. *)
Definition put_outcome (path : list string) (t : tree) (m m' : gomap tree)
    (err : option goerr) : Prop :=
  (path = [] ∧ err = Some err_empty ∧ m' = m) ∨
  (path ≠ [] ∧ blocked path m ∧ err = Some (errNotObject path) ∧ m' = m) ∨
  (path ≠ [] ∧ ¬ blocked path m ∧ err = None ∧ written path t m m' ∧ mclean m').

Lemma tput_written path t m m' :
  tput path t m = Ok (Some m') → t ≠ TNil → written path t m m'.
Proof.
  intros H Hn. split; [|split].
  - intros sub. by eapply tput_lookup_below.
  - intros q Hq. by eapply tput_frame.
  - intros q sub Hq Hs. by eapply tput_prefix.
Qed.

(** Put of a value disjoint from the event. *)
Lemma put_disjoint h e m fp p t fpv key :
  ev_rep h e m fp → mclean m → rep h (Some p) t fpv → tclean t → NoDup (fp ++ fpv) →
  ∃ pr m' fp', Put h e key (Some p) = Ok pr ∧
    ev_rep (put_heap pr) (put_event pr) m' fp' ∧
    put_outcome (keyToPath key) t m m' (put_err pr) ∧
    obs (put_heap pr) (put_old pr) (match put_err pr with None => tlookup (keyToPath key) m | _ => None end) ∧
    stable h (put_heap pr) (λ l, l ∈ fp) ∧
    (∀ l, l ∈ fp' → l ∈ fp ∨ l ∈ fpv ∨ fresh h l) ∧
    (put_err pr ≠ None → put_heap pr = h ∧ put_event pr = e) ∧
    (put_err pr = None →
       Get (put_heap pr) (put_event pr) key = Ok (put_heap pr, Some p) ∧
       rep (put_heap pr) (Some p) t fpv).
Proof.
  intros Hev Hm Hr Ht Hn. pose proof (put_tree h e m fp p t fpv key Hev Hr Hn) as H.
  destruct (keyToPath key) as [|k path] eqn:Ek.
  { destruct H as (pr & fp' & Hput & He & Ho & Hev' & Hst & Hin & Hf & Hg).
    simpl in He. exists pr, m, fp'. split; [done|]. split; [done|]. split; [by left|].
    rewrite He. split_and!; try done.
    by rewrite <-He. }
  rewrite spec_put_eq in H by (by apply tclean_not_nil).
  rewrite tget_clean in H by done. rewrite andb_false_r in H.
  destruct (tput_clean (k :: path) t m Hm Ht) as (o & Eo & Hc). rewrite Eo in H.
  pose proof (tput_refused (k :: path) t m Hm ltac:(done)) as Href.
  destruct o as [m'|]; destruct H as (pr & fp' & Hput & He & Ho & Hev' & Hst & Hin & Hf & Hg);
    simpl in He.
  - exists pr, m', fp'. rewrite He in *. split_and!; try done.
    right. right. split_and!; try done.
    + intros Hb. rewrite (proj2 Href Hb) in Eo. done.
    + apply tput_written; [done|by apply tclean_not_nil].
    + by apply Hc.
  - exists pr, m, fp'. rewrite He in *. split_and!; try done.
    right. left. split_and!; try done. by apply Href.
Qed.

(** Put, under any key, of a value found in the event itself.  Containers become
    shared, so the result is described by [ev_shows]. *)
Lemma put_copy h e m fp p t fpt A key :
  ev_rep h e m fp → mclean m → A ≠ [] → get_path h e A = Ok (h, Some p) →
  rep h (Some p) t fpt → tclean t →
  (∀ s, keyToPath key = A ++ s → s = []) →
  ∃ pr m', Put h e key (Some p) = Ok pr ∧
    ev_shows (put_heap pr) (put_event pr) m' ∧
    put_outcome (keyToPath key) t m m' (put_err pr) ∧
    stable h (put_heap pr) (λ l, l ∈ fp) ∧
    (put_err pr ≠ None → put_heap pr = h ∧ put_event pr = e) ∧
    (put_err pr = None → Get (put_heap pr) (put_event pr) key = Ok (put_heap pr, Some p)).
Proof.
  intros Hev Hm HA Hget Hp Ht Hpre. unfold Put, Get, put.
  destruct (keyToPath key) as [|k path] eqn:Ek.
  { eexists _, m. split; [reflexivity|]. split; [by eapply ev_rep_shows|]. split; [by left|].
    split; [apply stable_refl|]. done. }
  set (B := k :: path) in *.
  unfold ev_rep in Hev. unfold get_path in Hget.
  destruct (fields e) as [r|] eqn:Ef; [|done]. 
  destruct Hev as (gm & fps & Hr & Hs & Ha & -> & Hnd).
  rewrite (map_of_Some _ _ _ Hr) in Hget.
  destruct gm as [|e0 gm]; [done|]. set (G := e0 :: gm) in *.
  destruct A as [|a A]; [done|]. destruct (get_loop h (Some r) (a :: A)) as [op|] eqn:Eg; [|done].
  injection Hget as ->.
  assert (get_path h e B = match get_loop h (Some r) B with Ok op => Ok (h, op) | Panic => Panic end) as HgB.
  { unfold get_path. rewrite Ef, (map_of_Some _ _ _ Hr). reflexivity. }
  rewrite HgB.
  pose proof (get_loop_ref B h r G m fps Hr Hs Ha ltac:(done)) as HG.
  rewrite tget_clean in HG by done.
  assert (∃ old, get_loop h (Some r) B = Ok old) as [old HgB2].
  { destruct (tlookup B m); [destruct HG as (? & ? & -> & _)|rewrite HG]; eauto. }
  rewrite HgB2. rewrite andb_false_r. rewrite Ef.
  destruct (tput_clean B t m Hm Ht) as (o & Eo & Hc).
  pose proof (tput_refused B t m Hm ltac:(done)) as Href.
  destruct o as [m'|].
  - destruct (put_loop_spine B B h r G m fps p t m' Hr Hs Ha ltac:(done) Hnd Eo)
      as (h' & rw & rest & Hput & Hsp & Hst & Hndr & Hrl & Hold & Hfin).
    assert (LMap rw ∉ fpt) as Hni.
    { eapply spine_not_below; try done. }
    destruct (Hfin h' noW t fpt m') as (gm' & fps' & Hr' & Hs' & Ha' & Hp' & Hg').
    { apply stable_refl. } { auto. }
    { eapply rep_frame; [done|exact Hst|]. intros l Hl ->. done. } { done. }
    rewrite Hput. eexists _, m'. split; [reflexivity|]. cbn [put_heap put_event put_err].
    split. { unfold ev_shows. rewrite Ef. eauto. }
    split.
    { right; right. split_and!; try done.
      - intros Hb. rewrite (proj2 Href Hb) in Eo. done.
      - apply tput_written; [done|by apply tclean_not_nil].
      - by apply Hc. }
    split.
    { eapply stable_weaken; [exact Hst|]. intros l ->. by eapply spine_in. }
    split; [done|]. intros _. unfold get_path. rewrite Ef, (map_of_Some _ _ _ Hr').
    destruct gm' as [|e1 gm'].
    { rewrite (get_loop_empty _ _ _ Hr') in Hg'. done. }
    unfold B in *. by rewrite Hg'.
  - assert (put_loop B h (Some r) B (Some p) = Ok (h, Some (errNotObject B))) as Hput.
    { pose proof (put_loop_ref B B h r G m fps) as HR. clear HR.
      (* the refusal does not depend on the value: use a fresh scalar *)
      assert (∀ full pth h r gm m fps tv, hmaps h !! r = Some gm → msorted gm → rep_assoc h gm m fps →
                pth ≠ [] → tput pth tv m = Ok None →
                put_loop full h (Some r) pth (Some p) = Ok (h, Some (errNotObject full))) as HR.
      { clear. intros full pth. induction pth as [|k pth IH]; intros h r gm m fps tv Hr Hs Ha Hne Ht; [done|].
        destruct pth as [|k2 pth]; [done|].
        rewrite tput_cons in Ht. rewrite put_loop_cons, (map_of_Some _ _ _ Hr).
        destruct (mget k gm) as [op|] eqn:Hk.
        - destruct (rep_assoc_pick _ _ _ _ _ _ Ha Hk) as (t & fp & Hm & Hrep & _).
          rewrite Hm in Ht. destruct op as [q|]; [|apply rep_None in Hrep as ->; done].
          destruct (rep_deref _ _ _ _ Hrep) as [v Hq]. cbn [deref]. rewrite Hq.
          destruct (is_object_dec t) as [[mi ->]|Hno].
          + destruct (rep_TObj _ _ _ _ Hrep) as (v' & ri & gmi & fpi & Hp & Hty & Hobj & Hri & Hsi & Hai & ->).
            simplify_eq. rewrite Hty, N.eqb_refl, Hobj.
            destruct (tput (k2 :: pth) tv mi) as [[]|] eqn:E; try done. by eapply IH.
          + assert (t ≠ TNilObj) as Hnn by (by intros ->).
            pose proof (rep_not_object_type _ _ _ _ _ Hrep Hq Hno Hnn) as Hty.
            by rewrite (proj2 (N.eqb_neq _ _) Hty).
        - rewrite (proj1 (rep_assoc_None _ _ _ _ k Ha) Hk) in Ht.
          destruct (tput_nil_ok (k2 :: pth) tv ltac:(done)) as [m' Hm']. by rewrite Hm' in Ht. }
      by eapply HR. }
    rewrite Hput. eexists _, m. split; [reflexivity|]. cbn [put_heap put_event put_err].
    split. { unfold ev_shows. rewrite Ef. eauto. }
    split. { right; left. split_and!; try done. by apply Href. }
    split; [apply stable_refl|]. done.
Qed.

Lemma tsorted_spec m : tsorted (TObj m) → msorted m ∧ ∀ k t, mget k m = Some t → tsorted t.
Proof.
  rewrite tsorted_obj. intros [Hs H]. split; [done|]. intros k t Hk%mget_Some_In.
  apply elem_of_list_In in Hk. rewrite Forall_forall in H. by apply (H _ Hk).
Qed.
Lemma tget_lookup path m t : path ≠ [] → tget path m = Ok (Some t) → tlookup path m = Some t.
Proof.
  revert m. induction path as [|k path IH]; intros m Hne H; [done|]. cbn [tget tlookup] in *.
  destruct (mget k m) as [t0|]; [|done]. destruct path as [|k2 path]; [by destruct t0; simplify_eq|].
  destruct t0; simplify_eq; try done. by apply IH.
Qed.
Lemma tput_same path t m :
  tsorted (TObj m) → path ≠ [] → tlookup path m = Some t → tput path t m = Ok (Some m).
Proof.
  revert m. induction path as [|k path IH]; intros m Hm Hne El; [done|].
  pose proof (tsorted_spec _ Hm) as [Hms Hmc]. destruct path as [|k2 path].
  - cbn [tput]. rewrite tlookup_singleton in El. do 2 f_equal.
    destruct (mget k m) as [t0|] eqn:Hk; [|done].
    assert (t0 = t) as -> by (destruct t0; congruence).
    by apply mset_same.
  - rewrite tput_cons. rewrite tlookup_cons in El.
    destruct (mget k m) as [[]|] eqn:Hk; try done.
    rewrite (IH _ (Hmc _ _ Hk) ltac:(done) El). do 2 f_equal.
    by apply mset_same.
Qed.

(** A value of the event modified in place through its pointer. *)
Lemma modify_in_place h e m fp p t fpt path h1 W t' fpt' m' :
  ev_rep h e m fp → tsorted (TObj m) → path ≠ [] → get_path h e path = Ok (h, Some p) →
  rep h (Some p) t fpt → tput path t' m = Ok (Some m') →
  stable h h1 W → (∀ l, W l → l ∉ fp ∨ l ∈ fpt) → rep h1 (Some p) t' fpt' →
  NoDup fpt' → (∀ l, l ∈ fpt' → l ∈ fpt ∨ l ∉ fp) →
  ∃ fp', ev_rep h1 e m' fp' ∧ (∀ l, l ∈ fp' → l ∈ fp ∨ l ∈ fpt') ∧
    get_path h1 e path = Ok (h1, Some p) ∧ put h1 e path (Some p) true = Ok (mkPut h1 e (Some p) None).
Proof.
  intros Hev Hm HA Hget Hp Htp Hst HW Hp1 Hnd1 Hfp1.
  unfold ev_rep in Hev. unfold get_path in Hget.
  destruct (fields e) as [r|] eqn:Ef; [|done].
  destruct Hev as (gm & fps & Hr & Hs & Ha & -> & Hnd).
  rewrite (map_of_Some _ _ _ Hr) in Hget.
  destruct gm as [|e0 gm]; [done|]. set (G := e0 :: gm) in *.
  destruct path as [|k path]; [done|].
  destruct (get_loop h (Some r) (k :: path)) as [op|] eqn:Eg; [|done]. injection Hget as ->.
  destruct (put_loop_spine [] (k :: path) h r G m fps p t' m' Hr Hs Ha ltac:(done) Hnd Htp)
    as (h' & rw & rest & Hput & Hsp & Hst' & Hndr & Hrl & Hold & Hfin).
  rewrite (put_loop_same [] (k :: path) h r G m fps p Hr Hs Ha ltac:(done) Eg) in Hput.
  injection Hput as <-.
  assert (∀ l, l ∈ LMap r :: rest → allocated h l → l ∈ LMap r :: fps) as Hrest.
  { intros l Hl Hal. apply elem_of_cons in Hl as [->|Hl]; [set_solver|].
    destruct (Hrl _ Hl) as [?|Hf]; [set_solver|]. by apply not_fresh_allocated in Hal. }
  assert (sublist fpt fps) as Hsub by (by eapply get_loop_fp).
  assert (LMap r ∉ fpt) as Hrt.
  { intros Hl. apply NoDup_cons in Hnd as [Hnd _]. apply Hnd. by eapply sublist_elem. }
  assert (∀ l, l ∈ LMap r :: rest → l ∉ fpt) as Hrt2.
  { intros l Hl. apply elem_of_cons in Hl as [->|Hl]; [done|].
    intros Hl2. by eapply Hold. }
  set (W' := λ l, W l ∧ allocated h l).
  assert (stable h h1 W') as Hst1.
  { destruct Hst as (S1 & S2 & S3 & S4). split_and!; try done.
    - intros q v Hq. destruct (S1 _ _ Hq) as [?|[? ?]]; [by left|right]. split; [split; [done|]|done].
      simpl. by eapply lookup_lt_Some.
    - intros q g Hq. destruct (S2 _ _ Hq) as [?|?]; [by left|right]. split; [done|].
      simpl. by eapply lookup_lt_Some. }
  destruct (Hfin h1 W' t' fpt' m' Hst1) as (gm' & fps' & Hr' & Hs' & Ha' & Hp' & Hg').
  { intros l Hl [HWl Hal]. destruct (HW _ HWl) as [?|?]; [|by eapply Hrt2].
    specialize (Hrest l Hl Hal). set_solver. }
  { done. } { done. }
  assert (get_path h1 e (k :: path) = Ok (h1, Some p)) as Hg1.
  { unfold get_path. rewrite Ef, (map_of_Some _ _ _ Hr').
    destruct gm' as [|e1 gm'].
    { rewrite (get_loop_empty _ _ _ Hr') in Hg'. done. }
    by rewrite Hg'. }
  assert (∀ l, l ∈ fps' → allocated h1 l) as Hal'.
  { intros l Hl. by eapply rep_assoc_alloc. }
  assert (∀ l, l ∈ LMap r :: rest → l ∈ LMap r :: fps ∨ fresh h l) as Hrl'.
  { intros l Hl. apply elem_of_cons in Hl as [->|Hl]; [left; set_solver|].
    destruct (Hrl _ Hl); [left; set_solver|by right]. }
  (* [rest] only holds cells of the event: nothing was created by writing back *)
  assert (fps ≡ₚ fpt ++ rest) as Hperm.
  { destruct (Hfin h noW t fpt m) as (gm2 & fps2 & Hr2 & Hs2 & Ha2 & Hp2 & _).
    { apply stable_refl. } { auto. } { done. }
    { apply tput_same; [done|done|].
      pose proof (get_loop_ref (k :: path) h r G m fps Hr Hs Ha ltac:(done)) as HG.
      rewrite Eg in HG.
      destruct (tget (k :: path) m) as [[t0|]|] eqn:El; [|done|done].
      destruct HG as (p0 & fp0 & [= <-] & Hp0 & _). rewrite (rep_fun _ _ _ _ _ _ Hp Hp0).
      by apply tget_lookup. }
    simplify_eq. by destruct (proj2 (proj2 (rep_fun_all h)) _ _ _ Ha _ _ Ha2) as [_ ->]. }
  exists (LMap r :: fps'). split.
  { unfold ev_rep. rewrite Ef. exists gm', fps'. split_and!; try done.
    rewrite Hp'. apply NoDup_cons. apply NoDup_cons in Hndr as [Hr1 Hr2]. split.
    - rewrite elem_of_app. intros [Hl|Hl]; [|done]. destruct (Hfp1 _ Hl) as [?|Hl2]; [done|]. set_solver.
    - apply NoDup_app. split; [done|]. split; [|done]. intros l Hl Hl2.
      destruct (Hfp1 _ Hl) as [Hl3|Hl3].
      + eapply Hold; [exact Eg|exact Hp|exact Hl3|exact Hl2].
      + apply Hl3. rewrite Hperm. set_solver. }
  split.
  { intros l. rewrite elem_of_cons, Hp', elem_of_app. rewrite elem_of_cons.
    intros [->|[?|Hl]]; [by left; left|by right|]. left; right. rewrite Hperm. set_solver. }
  split; [done|].
  unfold put. rewrite Ef, Hg1, Ef. simpl andb. cbv iota.
  rewrite (put_loop_same (k :: path) (k :: path) h1 r gm' m' fps' p Hr' Hs' Ha' ltac:(done) Hg').
  reflexivity.
Qed.

Lemma tput_exists path t t0 m :
  path ≠ [] → tlookup path m = Some t0 → ∃ m', tput path t m = Ok (Some m').
Proof.
  revert m. induction path as [|k path IH]; intros m Hne El; [done|]. destruct path as [|k2 path].
  - by eexists.
  - rewrite tput_cons. rewrite tlookup_cons in El.
    destruct (mget k m) as [[]|] eqn:Hk; try done.
    destruct (IH _ ltac:(done) El) as [m' ->]. by eexists.
Qed.

Lemma tlookup_not_blocked path t m : mclean m → path ≠ [] → tlookup path m = Some t → ¬ blocked path m.
Proof.
  intros Hm Hne El Hb. destruct (tput_exists path TNull t m Hne El) as [m' Hm'].
  apply (tput_refused path TNull m Hm Hne) in Hb. congruence.
Qed.

Lemma written_trans path t t' m m1 m2 :
  written path t m m1 → written path t' m1 m2 → written path t' m m2.
Proof.
  intros (A1 & A2 & A3) (B1 & B2 & B3). split_and!; try done.
  intros q Hq. rewrite B2 by done. by apply A2.
Qed.

(** Put over an existing field of a value that may contain the old one. *)
Lemma put_over h e m fp q t fpt p t' fpv key :
  ev_rep h e m fp → mclean m → keyToPath key ≠ [] → Get h e key = Ok (h, Some q) →
  rep h (Some q) t fpt → rep h (Some p) t' fpv → tclean t' → NoDup fpv →
  (∀ l, l ∈ fpv → l ∈ fpt ∨ l ∉ fp) →
  ∃ pr m' fp', Put h e key (Some p) = Ok pr ∧ put_err pr = None ∧ put_old pr = Some q ∧
    ev_rep (put_heap pr) (put_event pr) m' fp' ∧
    written (keyToPath key) t' m m' ∧ mclean m' ∧
    stable h (put_heap pr) (λ l, l ∈ fp) ∧
    (∀ l, l ∈ fp' → l ∈ fp ∨ l ∈ fpv ∨ fresh h l) ∧
    rep (put_heap pr) (Some p) t' fpv.
Proof.
  intros Hev Hm HA Hget Hp Hp' Ht Hndv Hdis. unfold Put, Get, put in *.
  destruct (keyToPath key) as [|k path] eqn:Ek; [done|]. set (B := k :: path) in *.
  unfold ev_rep in Hev. unfold get_path in Hget.
  destruct (fields e) as [r|] eqn:Ef; [|done].
  destruct Hev as (gm & fps & Hr & Hs & Ha & -> & Hnd).
  rewrite (map_of_Some _ _ _ Hr) in Hget.
  destruct gm as [|e0 gm]; [done|]. set (G := e0 :: gm) in *.
  unfold B in Hget. fold B in Hget.
  destruct (get_loop h (Some r) B) as [op|] eqn:Eg; [|done]. injection Hget as ->.
  assert (get_path h e B = Ok (h, Some q)) as HgB.
  { unfold get_path. rewrite Ef, (map_of_Some _ _ _ Hr). unfold G, B in *. by rewrite Eg. }
  rewrite HgB. rewrite andb_false_r. rewrite Ef.
  assert (tlookup B m = Some t) as El.
  { pose proof (get_loop_ref B h r G m fps Hr Hs Ha ltac:(done)) as HG.
    rewrite tget_clean in HG by done. rewrite Eg in HG.
    destruct (tlookup B m) as [t0|]; [|done].
    destruct HG as (p0 & fp0 & [= <-] & Hp0 & _). by rewrite (rep_fun _ _ _ _ _ _ Hp Hp0). }
  destruct (tput_exists B t' t m ltac:(done) El) as [m' Eo].
  destruct (tput_clean B t' m Hm Ht) as (o & Eo' & Hc). rewrite Eo in Eo'. injection Eo' as <-.
  destruct (put_loop_spine B B h r G m fps p t' m' Hr Hs Ha ltac:(done) Hnd Eo)
    as (h' & rw & rest & Hput & Hsp & Hst & Hndr & Hrl & Hold & Hfin).
  assert (LMap rw ∈ LMap r :: fps) as Hrw by (by eapply spine_in).
  assert (LMap rw ∉ fpt) as Hni.
  { eapply (spine_not_below B h r G m fps rw B q); try done. intros s Hs'.
    rewrite <-(app_nil_r B) in Hs' at 1. by apply app_inv_head in Hs'. }
  assert (LMap rw ∉ fpv) as Hniv.
  { intros Hl. destruct (Hdis _ Hl); done. }
  assert (rep h' (Some p) t' fpv) as Hpv.
  { eapply rep_frame; [done|exact Hst|]. by intros l Hl ->. }
  destruct (Hfin h' noW t' fpv m') as (gm' & fps' & Hr' & Hs' & Ha' & Hp2 & Hg').
  { apply stable_refl. } { auto. } { done. } { done. }
  rewrite Hput. eexists _, m', (LMap r :: fps'). split; [reflexivity|].
  cbn [put_heap put_event put_err put_old]. split; [done|]. split; [done|].
  assert (∀ l, l ∈ fpv → l ∉ LMap r :: rest) as Hd2.
  { intros l Hl Hl2. destruct (Hdis _ Hl) as [Hl3|Hl3].
    - apply elem_of_cons in Hl2 as [->|Hl2]; [|by eapply Hold].
      apply NoDup_cons in Hnd as [Hnd _]. apply Hnd. eapply sublist_elem; [|exact Hl3].
      exact (get_loop_fp h r G m fps B q t fpt Hr Hs Ha ltac:(done) Eg Hp).
    - apply elem_of_cons in Hl2 as [->|Hl2]; [set_solver|].
      destruct (Hrl _ Hl2) as [?|Hf]; [set_solver|].
      eapply not_fresh_allocated; [|exact Hf]. by eapply rep_alloc. }
  split.
  { unfold ev_rep. rewrite Ef. exists gm', fps'. split_and!; try done.
    rewrite Hp2. apply NoDup_cons. apply NoDup_cons in Hndr as [Hr1 Hr2]. split.
    - rewrite elem_of_app. intros [Hl|Hl]; [|done]. eapply Hd2; [exact Hl|]. set_solver.
    - apply NoDup_app. split; [done|]. split; [|done]. intros l Hl Hl2.
      eapply Hd2; [exact Hl|]. set_solver. }
  split; [apply tput_written; [done|by apply tclean_not_nil]|].
  split; [by apply Hc|].
  split.
  { eapply stable_weaken; [exact Hst|]. by intros l ->. }
  split; [|done].
  intros l. rewrite !elem_of_cons, Hp2, elem_of_app.
  intros [->|[?|Hl]]; [by left; left|auto|]. destruct (Hrl _ Hl); auto.
Qed.

(** The contents after a write are determined by the contents before. *)
Lemma written_unique path t m m1 m2 :
  written path t m m1 → written path t m m2 → path ≠ [] →
  mclean m → mclean m1 → mclean m2 → m1 = m2.
Proof.
  revert m m1 m2. induction path as [|k rest IH]; intros m m1 m2 Hw1 Hw2 Hne Hm Hm1 Hm2; [done|].
  destruct Hw1 as (Ha1 & Hb1 & Hc1), Hw2 as (Ha2 & Hb2 & Hc2).
  apply mclean_spec in Hm1 as [Hs1 Hcl1], Hm2 as [Hs2 Hcl2].
  assert (∀ mm k', (∀ j tt, mget j mm = Some tt → tclean tt) → mget k' mm = tlookup [k'] mm) as Hget.
  { intros mm k' Hc. simpl. destruct (mget k' mm) as [tt|] eqn:E; [|done].
    specialize (Hc _ _ E). by destruct tt. }
  apply gomap_ext; [done|done|]. intros k'.
  rewrite (Hget m1 k' Hcl1), (Hget m2 k' Hcl2).
  destruct (decide (k' = k)) as [->|Hk].
  2:{ assert (disjoint_paths (k :: rest) [k']) as Hd.
      { split; intros [x Hx]; simpl in Hx; congruence. }
      rewrite Hb1, Hb2 by done. done. }
  destruct rest as [|k2 rest].
  { specialize (Ha1 []). specialize (Ha2 []). rewrite app_nil_r in Ha1, Ha2. by rewrite Ha1, Ha2. }
  destruct (Hc1 [k] (k2 :: rest)) as [mi1 Hi1]; [done|done|].
  destruct (Hc2 [k] (k2 :: rest)) as [mi2 Hi2]; [done|done|].
  rewrite Hi1, Hi2.
  assert (mget k m1 = Some (TObj mi1)) as Hg1 by (by rewrite (Hget m1 k Hcl1)).
  assert (mget k m2 = Some (TObj mi2)) as Hg2 by (by rewrite (Hget m2 k Hcl2)).
  assert (∀ q, q ≠ [] → tlookup (k :: q) m1 = tlookup q mi1) as Hl1.
  { intros q Hq. simpl. rewrite Hg1. by destruct q. }
  assert (∀ q, q ≠ [] → tlookup (k :: q) m2 = tlookup q mi2) as Hl2.
  { intros q Hq. simpl. rewrite Hg2. by destruct q. }
  set (mi := match mget k m with Some (TObj x) => x | _ => [] end).
  assert (∀ q, q ≠ [] → tlookup (k :: q) m = tlookup q mi) as Hl.
  { intros q Hq. subst mi. simpl. destruct (mget k m) as [[]|], q; try done. }
  assert (mclean mi) as Hmi.
  { subst mi. apply mclean_spec in Hm as [_ Hm]. destruct (mget k m) as [[]|] eqn:E; try by repeat constructor.
    exact (Hm _ _ E). }
  do 2 f_equal. apply (IH mi); [| |done|done|exact (Hcl1 _ _ Hg1)|exact (Hcl2 _ _ Hg2)].
  - split_and!.
    + intros sub. rewrite <-Hl1 by done. apply Ha1.
    + intros q Hq. assert (q ≠ []) by (intros ->; apply Hq; apply prefix_nil).
      rewrite <-Hl1, <-Hl by done. apply Hb1. destruct Hq as [Hq1 Hq2].
      split; intros [x Hx]; simplify_eq/=; [apply Hq1|apply Hq2]; by exists x.
    + intros q sub Hq Hs. destruct q as [|q1 q]; [by exists mi1|].
      rewrite <-Hl1 by done. apply (Hc1 (k :: q1 :: q) sub); [|done]. simpl. by rewrite Hq.
  - split_and!.
    + intros sub. rewrite <-Hl2 by done. apply Ha2.
    + intros q Hq. assert (q ≠ []) by (intros ->; apply Hq; apply prefix_nil).
      rewrite <-Hl2, <-Hl by done. apply Hb2. destruct Hq as [Hq1 Hq2].
      split; intros [x Hx]; simplify_eq/=; [apply Hq1|apply Hq2]; by exists x.
    + intros q sub Hq Hs. destruct q as [|q1 q]; [by exists mi2|].
      rewrite <-Hl2 by done. apply (Hc2 (k :: q1 :: q) sub); [|done]. simpl. by rewrite Hq.
Qed.
