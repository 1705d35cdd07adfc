(** * What a message says, to ToLogEvent and to its getters.  The model is that of Protobuf.v
    and Getters.v; here are the specification and the proofs. *)
From Verif Require Export Getters Unpack.
From Coq Require Import Lia.
Local Open Scope Z_scope.

(** ** Specification *)
(** What a value says, told by its getters.  Of an object, names get a backslash before
    every dot ([escaped], Unpack.v). *)
Inductive conveys : option pval → tree → Prop :=
| cv_null v z : GetKind v = KNull z → conveys v TNull
| cv_bool v b : GetKind v = KBool b → conveys v (TBool (GetBoolean v))
| cv_float v b : GetKind v = KFloat b → conveys v (TFloat (GetFloat v))
| cv_int v z : GetKind v = KInt z → conveys v (TInt (GetInteger v))
| cv_uint v z : GetKind v = KUint z → conveys v (TUint (GetUnsignedInteger v))
| cv_time v z : GetKind v = KTime z → conveys v (TTime (GetTimestamp v))
| cv_string v s : GetKind v = KString s → conveys v (TStr (string_of_list_ascii (default [] (GetString_ v))))
| cv_array v ts : GetArray v ≠ None → Forall2 conveys (GetItems (GetArray v)) ts → conveys v (TArr ts)
| cv_object v kts m : Value_GetObject v ≠ None →
    Forall2 (λ kx kt, escaped kx.1 kt.1 ∧ conveys kx.2 kt.2) (GetFields (Value_GetObject v)) kts →
    msorted m → m ≡ₚ kts → conveys v (TObj m).
(** A name without its backslashes. *)
Definition without_backslashes (s : string) : string := string_of_list_ascii (List.filter (λ c, negb (Ascii.eqb c "\")) (list_ascii_of_string s)).
(** An event with the fields [m] says what the message with the fields [fs] says. *)
Definition event_says (fs : list (string * option pval)) (m : gomap tree) : Prop :=
  (* a field of the event is one of the message *)
  (∀ name t, mget name m = Some t → name ≠ "" ∧ ∃ k v, (k, v) ∈ fs ∧ without_backslashes k = name ∧ conveys v t) ∧
  (* there is one for each field of the message whose name is not just backslashes *)
  (∀ k v, (k, v) ∈ fs → without_backslashes k ≠ "" → ∃ t, mget (without_backslashes k) m = Some t) ∧
  (* with the value of that field, unless the names of two differ in backslashes only *)
  (∀ k v, (k, v) ∈ fs → without_backslashes k ≠ "" → (∀ k', k' ∈ map fst fs → without_backslashes k' = without_backslashes k → k' = k) →
    ∃ t, mget (without_backslashes k) m = Some t ∧ conveys v t).

(** ** Proofs *)
Lemma without_backslashes_drop s : without_backslashes s = drop_backslashes s.
Proof.
  unfold without_backslashes. induction s as [|c s IH]; [done|]. cbn. unfold c_bs in *. change "\"%char with c_bs. unfold c_bs.
  destruct (Ascii.eqb c _); cbn; [done|by f_equal].
Qed.
Lemma to_kind_obj fs u : to_value (PVal (KObject (Some (mkPObj fs u))) []) =
  obind (omapM (λ kv : string * option pval, match kv with (k, x) => obind (toEventValue x) (λ t, Ok (EscapeKey k, t)) end) fs) (λ l, Ok (TObj (mof_list l))).
Proof. reflexivity. Qed.
Lemma obind_Ok {A B} (x : Outcome A) (f : A → Outcome B) b : obind x f = Ok b ↔ ∃ a, x = Ok a ∧ f a = Ok b.
Proof. destruct x as [a|]; cbn; split; [intros H; by exists a|intros (a' & [= <-] & H); done|done|by intros (? & ? & _)]. Qed.
Lemma conveys_iff v : ∀ t, keys_ok v → to_value v = Ok t ↔ conveys (Some v) t.
Proof.
  induction v as [k u IH] using pval_ind'. intros t [Hs Hk]. rewrite kind_each_all in Hk.
  assert (∀ x t, opt_all (λ v, ∀ t, keys_ok v → to_value v = Ok t ↔ conveys (Some v) t) x → opt_all keys_ok x → toEventValue x = Ok t ↔ conveys x t) as Hx.
  { intros [v|] t' H1 H2; [by apply H1|]. split; [done|]. intros H. inversion H; cbn in *; try done. }
  destruct k as [|z|[[items ua]|]|b|b|z|[[fs uo]|]|s|z|z]; cbn [to_value to_kind].
  - split; [done|]. intros H. inversion H; cbn in *; done.
  - split; [intros [= <-]; by eapply cv_null|]. intros H. inversion H; cbn in *; try done.
  - rewrite obind_Ok. split.
    + intros (ts & E & [= <-]). apply cv_array; [done|]. cbn. apply omapM_Forall2 in E. cbn in IH, Hk. clear Hs.
      induction E as [|x y l l' Hxy _ IHE]; [apply Forall2_nil_2|]. apply Forall_cons in IH as [I1 I2]. apply Forall_cons in Hk as [K1 K2].
      apply Forall2_cons_2; [|by apply IHE]. by apply (Hx x y I1 K1).
    + intros H. inversion H as [? ? E|? ? E|? ? E|? ? E|? ? E|? ? E|? ? E|? ts Hn HF|? kts m Hn HF Hm Hp]; subst; cbn in *; try done.
      exists ts. split; [|done]. apply omapM_Forall2. clear H Hs Hn. induction HF as [|x y l l' Hxy _ IHE]; [apply Forall2_nil_2|].
      apply Forall_cons in IH as [I1 I2]. apply Forall_cons in Hk as [K1 K2]. apply Forall2_cons_2; [|by apply IHE]. by apply (Hx x y I1 K1).
  - split; [done|]. intros H. inversion H; cbn in *; done.
  - split; [intros [= <-]; by eapply (cv_bool (Some (PVal (KBool b) u)))|]. intros H. inversion H; cbn in *; try done.
  - split; [intros [= <-]; by eapply (cv_float (Some (PVal (KFloat b) u)))|]. intros H. inversion H; cbn in *; try done.
  - split; [intros [= <-]; by eapply (cv_int (Some (PVal (KInt z) u)))|]. intros H. inversion H; cbn in *; try done.
  - rewrite obind_Ok. split.
    + intros (kts & E & [= <-]). apply omapM_Forall2 in E. cbn in IH, Hk, Hs.
      assert (Forall2 (λ kx kt, escaped kx.1 kt.1 ∧ conveys kx.2 kt.2) fs kts) as HF.
      { clear Hs. induction E as [|[k x] y l l' Hxy _ IHE]; [apply Forall2_nil_2|]. apply Forall_cons in IH as [I1 I2]. apply Forall_cons in Hk as [K1 K2].
        apply Forall2_cons_2; [|by apply IHE]. apply obind_Ok in Hxy as (t' & Et & [= <-]). split; [by apply escaped_iff|]. by apply (Hx x t' I1 K1). }
      apply (cv_object _ kts); [done|exact HF|apply msorted_mof_list|]. apply mof_list_Permutation.
      assert (map fst kts = map EscapeKey (map fst fs)) as ->.
      { clear -HF. induction HF as [|kx kt l l' [E _] _ IH]; [done|]. apply escaped_iff in E. cbn [map]. by rewrite E, IH. }
      apply NoDup_fmap_2; [|done]. intros a b. apply EscapeKey_inj.
    + intros H. inversion H as [? ? E|? ? E|? ? E|? ? E|? ? E|? ? E|? ? E|? ts Hn HF|? kts m Hn HF Hm Hp]; subst; cbn in *; try done.
      exists kts. split; [|by rewrite (mof_list_perm m kts Hm) by (by symmetry)]. apply omapM_Forall2. clear H Hs Hn Hp. induction HF as [|[k x] [k' y] l l' [Hk' Hxy] _ IHE]; [apply Forall2_nil_2|].
      apply Forall_cons in IH as [I1 I2]. apply Forall_cons in Hk as [K1 K2]. apply Forall2_cons_2; [|by apply IHE]. cbn in *. apply escaped_iff in Hk' as ->.
      apply obind_Ok. exists y. split; [|done]. by apply (Hx x y I1 K1).
  - split; [done|]. intros H. inversion H; cbn in *; done.
  - split; [intros [= <-]; destruct s as [b|]; [exact (cv_string (Some (PVal (KString (Some b)) u)) _ eq_refl)|exact (cv_string (Some (PVal (KString None) u)) _ eq_refl)]|]. intros H. inversion H; cbn in *; done.
  - split; [intros [= <-]; by eapply (cv_time (Some (PVal (KTime z) u)))|]. intros H. inversion H; cbn in *; try done.
  - split; [intros [= <-]; by eapply (cv_uint (Some (PVal (KUint z) u)))|]. intros H. inversion H; cbn in *; try done.
Qed.
Lemma conveys_to x t : opt_all keys_ok x → toEventValue x = Ok t ↔ conveys x t.
Proof. destruct x as [v|]; [by apply conveys_iff|]. intros _. split; [done|]. intros H. inversion H; cbn in *; done. Qed.
(** The last field of a name counts. *)
Lemma put_fields_says l : ∀ acc name, mget name (fold_left put_field l acc) =
  match List.find (λ kt, String.eqb (drop_backslashes kt.1) name) (rev l) with
  | Some kt => if String.eqb name "" then mget name acc else Some kt.2
  | None => mget name acc
  end.
Proof.
  induction l as [|[k t] l IH] using rev_ind; intros acc name; [done|]. rewrite fold_left_app, rev_app_distr. cbn [fold_left app rev List.find fst].
  unfold put_field at 1. cbn [fst snd]. destruct (String.eqb_spec (drop_backslashes k) "") as [E|E].
  - rewrite IH. destruct (String.eqb_spec (drop_backslashes k) name) as [E2|E2]; [|done]. rewrite E in E2. subst name. cbn. by destruct (List.find _ _).
  - rewrite mget_mset. destruct (String.eqb_spec (drop_backslashes k) name) as [<-|E2].
    + rewrite String.eqb_refl, (proj2 (String.eqb_neq _ _)) by done. done.
    + rewrite (proj2 (String.eqb_neq _ _)) by congruence. apply IH.
Qed.
Lemma says_of_puts fs ts m : Forall2 (λ kv t, conveys kv.2 t) fs ts → NoDup (map fst fs) → m = fold_left put_field (zip (map fst fs) ts) [] → event_says fs m.
Proof.
  intros HF Hnd ->.
  assert (∀ k t, (k, t) ∈ zip (map fst fs) ts → ∃ v, (k, v) ∈ fs ∧ conveys v t) as H1.
  { clear Hnd. induction HF as [|[k v] t fs ts Hc _ IH]; intros k' t' Hin; cbn in Hin; [by apply elem_of_nil in Hin|].
    apply elem_of_cons in Hin as [[= -> ->]|Hin]; [exists v; split; [by left|done]|]. destruct (IH k' t' Hin) as (v' & ? & ?). exists v'. split; [by right|done]. }
  assert (∀ k v, (k, v) ∈ fs → ∃ t, (k, t) ∈ zip (map fst fs) ts) as H2.
  { clear Hnd H1. induction HF as [|[k v] t fs ts Hc _ IH]; intros k' v' Hin; [by apply elem_of_nil in Hin|]. cbn.
    apply elem_of_cons in Hin as [[= -> ->]|Hin]; [exists t; by left|]. destruct (IH k' v' Hin) as (t' & ?). exists t'. by right. }
  assert (∀ k v v', (k, v) ∈ fs → (k, v') ∈ fs → v = v') as H3.
  { clear HF H1 H2. induction fs as [|[k v] fs IH]; intros k' v1 v2 Hi1 Hi2; [by apply elem_of_nil in Hi1|]. cbn in Hnd. apply NoDup_cons in Hnd as [Hn Hnd].
    assert (∀ v', (k, v') ∉ fs) as Hno by (intros v' Hin; apply Hn, elem_of_list_fmap; by exists (k, v')).
    apply elem_of_cons in Hi1 as [[= -> ->]|Hi1].
    - apply elem_of_cons in Hi2 as [[= ->]|Hi2]; [done|by destruct (Hno v2)].
    - apply elem_of_cons in Hi2 as [[= -> ->]|Hi2]; [by destruct (Hno v1)|by eapply IH]. }
  set (z := zip (map fst fs) ts) in *.
  assert (∀ name t, mget name (fold_left put_field z []) = Some t → name ≠ "" ∧ ∃ k, (k, t) ∈ z ∧ drop_backslashes k = name) as G1.
  { intros name t. rewrite put_fields_says. destruct (List.find _ (rev z)) as [[k t']|] eqn:E; [|done]. destruct (String.eqb_spec name "") as [|Hne]; [done|]. intros [= ->].
    apply List.find_some in E as [Hin E]. cbn in E. apply String.eqb_eq in E. split; [done|]. exists k. split; [|done]. apply elem_of_list_In. by apply in_rev. }
  assert (∀ k t, (k, t) ∈ z → drop_backslashes k ≠ "" → ∃ t', mget (drop_backslashes k) (fold_left put_field z []) = Some t') as G2.
  { intros k t Hin Hne. rewrite put_fields_says. destruct (List.find _ (rev z)) as [[k' t']|] eqn:E.
    - rewrite (proj2 (String.eqb_neq _ _)) by done. by exists t'.
    - exfalso. apply List.find_none with (x := (k, t)) in E; [|apply in_rev; rewrite rev_involutive; by apply elem_of_list_In]. cbn in E. by rewrite String.eqb_refl in E. }
  unfold event_says. setoid_rewrite without_backslashes_drop. split; [|split].
  - intros name t Hg. destruct (G1 name t Hg) as (Hne & k & Hin & Hk). split; [done|]. destruct (H1 k t Hin) as (v & ? & ?). by exists k, v.
  - intros k v Hin Hne. destruct (H2 k v Hin) as (t & Ht). by apply (G2 k t).
  - intros k v Hin Hne Hu. destruct (H2 k v Hin) as (t & Ht). destruct (G2 k t Ht Hne) as (t' & Hg). exists t'. split; [done|].
    destruct (G1 _ _ Hg) as (_ & k' & Hin' & Hk'). destruct (H1 k' t' Hin') as (v' & Hv' & Hc'). assert (k' = k) as ->.
    { apply Hu; [|done]. apply elem_of_list_fmap. by exists (k', v'). }
    by rewrite (H3 k v v' Hin Hv').
Qed.
Lemma keys_ok_top m : keys_ok_wrapper m → NoDup (map fst (top_fields (Some m))) ∧ Forall (λ kv, opt_all keys_ok kv.2) (top_fields (Some m)).
Proof.
  unfold keys_ok_wrapper, top_fields, Wrapper_GetLog, GetLog. destruct (mw_log m) as [[l|]|]; [|intros _; split; constructor..]. unfold Log_GetObject.
  destruct (lg_object l) as [[fs u]|]; [|intros _; split; constructor]. exact (λ H, H).
Qed.
