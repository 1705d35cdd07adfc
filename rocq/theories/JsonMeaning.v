(** * What the JSON text of an event means, independently of the code.

    [means j t]: an event value decoded from the JSON value [j] is [t]; [shown t j]: the
    event value [t] is written as the JSON value [j]. *)
From Verif Require Export JsonGrammarFacts Nearest ProtobufEnd.
From Coq Require Import Lia.
Local Open Scope Z_scope.

(** ** Specification *)
(** Arrays and objects nested at most [n] deep. *)
Inductive within : Z → json → Prop :=
| w_scalar n j : (∀ l, j ≠ JArr l) → (∀ m, j ≠ JObj m) → within n j
| w_arr n l : 0 < n → Forall (within (n - 1)) l → within n (JArr l)
| w_obj n m : 0 < n → Forall (λ kv, within (n - 1) kv.2) m → within n (JObj m).

(** [fs] maps each name to its last value in [ts]. *)
Definition later_wins {A} (ts : list (string * A)) (fs : gomap A) : Prop :=
  msorted fs ∧ ∀ k t, (k, t) ∈ fs ↔ ∃ l1 l2, ts = l1 ++ (k, t) :: l2 ∧ k ∉ map fst l2.
(** null is the nil value, a number the nearest double (too big a number means nothing),
    a repeated name keeps its last value. *)
Inductive means : json → tree → Prop :=
| mn_null : means JNull TNil
| mn_bool b : means (JBool b) (TBool b)
| mn_num neg m e b : double_for neg m e b → means (JNum neg m e) (TFloat b)
| mn_str s : means (JStr s) (TStr s)
| mn_arr l ts : Forall2 means l ts → means (JArr l) (TArr ts)
| mn_obj m ts fs : Forall2 (λ kj kt, kj.1 = kt.1 ∧ means kj.2 kt.2) m ts → later_wins ts fs → means (JObj m) (TObj fs).

(** A string as JSON can hold it: every byte that does not belong to a UTF-8 character is
    replaced by U+FFFD. *)
Inductive cleaned : list ascii → list ascii → Prop :=
| cl_end : cleaned [] []
| cl_char c raw s : scalar c → cleaned raw s → cleaned (utf8_encode c ++ raw) (utf8_encode c ++ s)
| cl_bad b raw s : (∀ c raw', scalar c → b :: raw ≠ utf8_encode c ++ raw') → cleaned raw s →
    cleaned (b :: raw) (utf8_encode 0xFFFD ++ s).
Definition clean (s s' : string) : Prop := cleaned (list_ascii_of_string s) (list_ascii_of_string s').
(** Nils are null, an integer all its digits, a finite double a decimal that is nearest to
    it (NaN and infinities have none), a timestamp its RFC 3339 text. *)
Inductive shown : tree → json → Prop :=
| sh_null t : t ∈ [TNil; TNull; TNilArr; TNilObj] → shown t JNull
| sh_bool b : shown (TBool b) (JBool b)
| sh_int z : shown (TInt z) (JNum (z <? 0) (Z.abs z) 0)
| sh_uint z : shown (TUint z) (JNum (z <? 0) (Z.abs z) 0)
| sh_float b neg m e : double_for neg m e b → shown (TFloat b) (JNum neg m e)
| sh_str s s' : clean s s' → shown (TStr s) (JStr s')
| sh_time z mo s : moment_ok mo → unix_nanos mo = z → rfc3339 mo s → shown (TTime z) (JStr s)
| sh_arr l js : Forall2 shown l js → shown (TArr l) (JArr js)
| sh_obj m js : Forall2 (λ kt kj, clean kt.1 kj.1 ∧ shown kt.2 kj.2) m js → shown (TObj m) (JObj js).

(** ** Proofs *)
Lemma fold_max_le {A} (f : A → Z) l n : 0 ≤ n → fold_right (λ x a, Z.max (f x) a) 0 l ≤ n ↔ Forall (λ x, f x ≤ n) l.
Proof.
  intros Hn. induction l as [|x l IH]; simpl; [split; [constructor|done]|]. rewrite Forall_cons, <- IH. lia.
Qed.
Lemma jdepth_nonneg j : 0 ≤ jdepth j.
Proof.
  destruct j as [| | | |l|m]; cbn [jdepth]; try lia.
  - induction l as [|x l IH]; simpl; lia.
  - induction m as [|[k x] m IH]; simpl; lia.
Qed.
Lemma within_iff j : ∀ n, 0 ≤ n → within n j ↔ jdepth j ≤ n.
Proof.
  induction j as [| | | |l IH|m IH] using json_ind'; intros n Hn.
  1-4: split; [cbn; lia|intros _; by apply w_scalar].
  - cbn [jdepth]. split.
    + inversion 1 as [? ? H1 _|n' l' Hp HF|]; subst; [by destruct (H1 l)|].
      enough (fold_right (λ (j : json) n, Z.max (jdepth j) n) 0 l ≤ n - 1) by lia.
      apply fold_max_le; [lia|]. rewrite Forall_forall in *. intros x Hx. apply IH; [done|lia|auto].
    + intros H. assert (0 < n) as Hp.
      { destruct l as [|x l]; simpl in H; [lia|]. pose proof (jdepth_nonneg x). lia. }
      apply w_arr; [done|]. assert (fold_right (λ (j : json) n, Z.max (jdepth j) n) 0 l ≤ n - 1) as H' by lia.
      apply fold_max_le in H'; [|lia]. rewrite Forall_forall in *. intros x Hx. apply IH; [done|lia|auto].
  - cbn [jdepth].
    assert (fold_right (λ (kv : string * json) n, Z.max (let '(_, j) := kv in jdepth j) n) 0 m = fold_right (λ (kv : string * json) n, Z.max (jdepth kv.2) n) 0 m) as E.
    { clear. induction m as [|[k j] m IH]; simpl; congruence. }
    rewrite E in *. split.
    + inversion 1 as [? ? _ H1| |n' l' Hp HF]; subst; [by destruct (H1 m)|].
      enough (fold_right (λ (kv : string * json) n, Z.max (jdepth kv.2) n) 0 m ≤ n - 1) by lia.
      apply fold_max_le; [lia|]. rewrite Forall_forall in *. intros x Hx. apply IH; [done|lia|auto].
    + intros H. assert (0 < n) as Hp.
      { destruct m as [|[k x] m]; simpl in H; [lia|]. pose proof (jdepth_nonneg x). lia. }
      apply w_obj; [done|]. assert (fold_right (λ (kv : string * json) n, Z.max (jdepth kv.2) n) 0 m ≤ n - 1) as H' by lia.
      apply fold_max_le in H'; [|lia]. rewrite Forall_forall in *. intros x Hx. apply IH; [done|lia|auto].
Qed.

(** Later values win. *)
Lemma mof_list_snoc {A} (l : list (string * A)) k v : mof_list (l ++ [(k, v)]) = mset k v (mof_list l).
Proof. unfold mof_list. by rewrite fold_left_app. Qed.
Lemma mof_list_later {A} (ts : list (string * A)) : later_wins ts (mof_list ts).
Proof.
  split; [apply msorted_mof_list|]. intros k t. rewrite elem_of_list_In.
  transitivity (mget k (mof_list ts) = Some t).
  { split; [apply mget_In, msorted_mof_list|apply mget_Some_In]. }
  induction ts as [|[k' t'] ts IH] using rev_ind.
  - split; [done|]. intros (l1 & l2 & E & _). by destruct l1.
  - rewrite mof_list_snoc. destruct (decide (k = k')) as [->|Hne].
    + rewrite mget_mset_eq. split.
      * intros [= ->]. exists ts, []. split; [done|]. apply not_elem_of_nil.
      * intros (l1 & l2 & E & Hn). destruct l2 as [|x l2 _] using rev_ind.
        -- apply app_inj_tail in E as [_ [= ->]]. done.
        -- rewrite app_comm_cons, app_assoc in E. apply app_inj_tail in E as [_ <-].
           rewrite map_app, elem_of_app in Hn. destruct Hn. right. simpl. left.
    + rewrite mget_mset_ne by done. rewrite IH. split.
      * intros (l1 & l2 & -> & Hn). exists l1, (l2 ++ [(k', t')]). split; [by rewrite <- app_assoc|].
        rewrite map_app, elem_of_app. simpl. rewrite elem_of_list_singleton. tauto.
      * intros (l1 & l2 & E & Hn). destruct l2 as [|x l2 _] using rev_ind.
        -- apply app_inj_tail in E as [_ [= -> ->]]. done.
        -- rewrite app_comm_cons, app_assoc in E. apply app_inj_tail in E as [E _].
           exists l1, l2. split; [done|]. rewrite map_app, elem_of_app in Hn. tauto.
Qed.
Lemma later_wins_unique {A} (ts : list (string * A)) fs fs' : later_wins ts fs → later_wins ts fs' → fs = fs'.
Proof.
  intros [S H] [S' H']. apply gomap_ext; [done|done|]. intros k. apply option_eq. intros t.
  transitivity ((k, t) ∈ fs); [rewrite elem_of_list_In; split; [apply mget_Some_In|by apply mget_In]|].
  rewrite H, <- H'. rewrite elem_of_list_In. split; [by apply mget_In|apply mget_Some_In].
Qed.

(** Decoding. *)
Lemma osequence_pairs {A B C} (f : A → option B) (m : list (C * A)) ts :
  osequence (map (λ kv : C * A, let '(k, j) := kv in match f j with Some t => Some (k, t) | None => None end) m) = Some ts ↔
  Forall2 (λ kj kt, kj.1 = kt.1 ∧ f kj.2 = Some kt.2) m ts.
Proof.
  rewrite osequence_Forall2. revert ts. induction m as [|[k j] m IH]; intros [|[k' t'] ts]; simpl.
  - split; [constructor|done].
  - split; [done|inversion 1].
  - split; [done|inversion 1].
  - split.
    + intros [= H1 H2]. destruct (f j) as [t|] eqn:E; [|done]. injection H1 as -> ->. constructor; [done|by apply IH].
    + inversion 1 as [|? ? ? ? [H1 H2] H3]; subst. simpl in *. subst. rewrite H2. f_equal. by apply IH.
Qed.
Lemma osequence_all {A B} (f : A → option B) l ts : osequence (map f l) = Some ts ↔ Forall2 (λ j t, f j = Some t) l ts.
Proof.
  rewrite osequence_Forall2. revert ts. induction l as [|j l IH]; intros [|t ts]; simpl.
  - split; [constructor|done].
  - split; [done|inversion 1].
  - split; [done|inversion 1].
  - split.
    + intros [= H1 H2]. constructor; [done|by apply IH].
    + inversion 1; subst. f_equal; [done|by apply IH].
Qed.
Lemma Forall2_iff_on {A B} (P Q : A → B → Prop) l l' : Forall (λ x, ∀ y, P x y ↔ Q x y) l → Forall2 P l l' ↔ Forall2 Q l l'.
Proof.
  intros H. revert l'. induction H as [|x l Hx Hl IH]; intros [|y l'].
  - split; constructor.
  - split; inversion 1.
  - split; inversion 1.
  - split; inversion 1; subst; constructor; try (by apply Hx); by apply IH.
Qed.
Lemma fields_means m ts : Forall (λ kv, jvalid kv.2 → ∀ t, means kv.2 t ↔ value_of_json kv.2 = Some t) m → jvalid (JObj m) →
  fields_of_json m = Some ts ↔ Forall2 (λ kj kt, kj.1 = kt.1 ∧ means kj.2 kt.2) m ts.
Proof.
  intros IH Hv. rewrite jvalid_obj in Hv. unfold fields_of_json. rewrite osequence_pairs. symmetry. apply Forall2_iff_on.
  rewrite Forall_forall in *. intros [k j] Hx [k' t]. simpl. destruct (Hv _ Hx) as [_ Hj]. by rewrite (IH _ Hx Hj).
Qed.
Lemma means_iff j : jvalid j → ∀ t, means j t ↔ value_of_json j = Some t.
Proof.
  induction j as [|b|neg m e|s|l IH|m IH] using json_ind'; intros Hv t.
  - split; [by inversion 1|]. intros [= <-]. constructor.
  - split; [by inversion 1|]. intros [= <-]. constructor.
  - cbn [value_of_json]. split.
    + inversion 1 as [| |? ? ? b Hd| | |]; subst. apply double_for_iff in Hd; [|done]. by rewrite Hd.
    + destruct (f64_of_dec neg m e) as [b|] eqn:E; [|done]. intros [= <-]. constructor. by apply double_for_iff.
  - split; [by inversion 1|]. intros [= <-]. constructor.
  - rewrite jvalid_arr in Hv.
    assert (∀ ts, Forall2 means l ts ↔ osequence (map value_of_json l) = Some ts) as Hl.
    { intros ts. rewrite osequence_all. apply Forall2_iff_on. rewrite Forall_forall in *. intros x Hx y. by apply IH; [|apply Hv]. }
    cbn [value_of_json]. split.
    + inversion 1 as [| | | |? ts HF|]; subst. apply Hl in HF. by rewrite HF.
    + destruct (osequence (map value_of_json l)) as [ts|] eqn:E; [|done]. intros [= <-]. constructor. by apply Hl.
  - pose proof (fields_means m) as Hl.
    assert (value_of_json (JObj m) = match fields_of_json m with Some ts => Some (TObj (mof_list ts)) | None => None end) as -> by done.
    split.
    + inversion 1 as [| | | | |? ts fs HF HL]; subst. apply Hl in HF; [|done|done]. rewrite HF.
      by rewrite (later_wins_unique _ _ _ HL (mof_list_later ts)).
    + destruct (fields_of_json m) as [ts|] eqn:E; [|done]. intros [= <-]. apply (mn_obj m ts); [by apply Hl|apply mof_list_later].
Qed.
Lemma means_obj m ts fs : jvalid (JObj m) → fields_of_json m = Some ts → means (JObj m) (TObj fs) ↔ fs = mof_list ts.
Proof.
  intros Hv E. rewrite means_iff by done.
  assert (value_of_json (JObj m) = match fields_of_json m with Some ts => Some (TObj (mof_list ts)) | None => None end) as -> by done.
  rewrite E. naive_solver.
Qed.
Lemma document_valid text j : document text j → jvalid j.
Proof.
  rewrite <- parse_iff. unfold parse. destruct (pvalue _ text) as [[j' r]|] eqn:E; [|done]. destruct (skip_ws r); [|done].
  intros [= <-]. by apply (proj1 (parse_facts _)) in E as [_ ?].
Qed.

(** Encoding. *)
Lemma fix_seq b l : fix_bytes (b :: l) = match seq_at (b :: l) with Some (p, l') => p ++ fix_bytes l' | None => runeError ++ fix_bytes l end.
Proof.
  cbn [fix_bytes seq_at]. destruct (utf8_1 b); [done|]. destruct l as [|b1 l]; [done|]. destruct (utf8_2 b b1); [done|].
  destruct l as [|b2 l]; [done|]. destruct (utf8_3 b b1 b2); [done|]. destruct l as [|b3 l]; [done|]. by destruct (utf8_4 b b1 b2 b3).
Qed.
Lemma cleaned_fix l : cleaned l (fix_bytes l).
Proof.
  remember (length l) as n eqn:Hn. revert l Hn. induction (lt_wf n) as [n _ IH]. intros l ->.
  assert (∀ l', (length l' < length l)%nat → cleaned l' (fix_bytes l')) as IH' by (intros l' Hl; exact (IH _ Hl _ eq_refl)).
  destruct l as [|b l]; [constructor|]. rewrite fix_seq. destruct (seq_at (b :: l)) as [[p l']|] eqn:E.
  - apply seq_at_some in E as (c & Hc & -> & E). rewrite E. constructor; [done|]. apply IH'. rewrite E, app_length.
    assert (utf8_encode c ≠ []) as Hne. { unfold utf8_encode. repeat destruct (_ <? _); done. }
    destruct (utf8_encode c); [done|]. simpl. lia.
  - pose proof (proj1 (seq_at_none _) E) as Hbad. change runeError with (utf8_encode 0xFFFD). constructor; [exact Hbad|]. apply IH'. simpl. lia.
Qed.
Lemma clean_fix s : clean s (fix_utf8 s).
Proof. unfold clean, fix_utf8. rewrite list_ascii_of_string_of_list_ascii. apply cleaned_fix. Qed.
Lemma shown_tree fmt t : float_format fmt → in_range t → ∀ j, json_of_tree fmt t = Some j → shown t (jfix j).
Proof.
  intros Hf. induction t as [| |b|z|z|b|s|z| |l IH| |m IH] using tree_ind'; intros Hr j.
  - intros [= <-]. apply sh_null. set_solver.
  - intros [= <-]. apply sh_null. set_solver.
  - intros [= <-]. constructor.
  - intros [= <-]. apply sh_int.
  - intros [= <-]. apply sh_uint.
  - cbn [json_of_tree]. destruct (finite64 b) eqn:Fb; [|done]. intros [= <-]. specialize (Hf b Fb). unfold jfloat.
    destruct (fmt b) as [[neg m] e]. destruct Hf as [Hm Hd]. cbn [jfix]. constructor. by apply double_for_iff.
  - intros [= <-]. cbn [jfix]. constructor. apply clean_fix.
  - intros [= <-]. cbn [jfix]. cbn [in_range] in Hr. destruct (moment_of_ok z) as [M1 M2].
    apply (sh_time z (moment_of z)); [done|done|]. rewrite (proj2 (fix_utf8_iff _) (time_text_valid z)). by apply time_text_reads.
  - intros [= <-]. apply sh_null. set_solver.
  - cbn [json_of_tree]. destruct (osequence (map (json_of_tree fmt) l)) as [js|] eqn:E; [|done]. intros [= <-].
    cbn [jfix]. constructor. apply osequence_all in E. rewrite in_range_arr in Hr. clear -E Hr IH.
    induction E as [|t j l js Ht Hl IHl]; [constructor|]. inversion IH; inversion Hr; subst. simpl. constructor; auto.
  - intros [= <-]. apply sh_null. set_solver.
  - cbn [json_of_tree]. destruct (osequence (map _ m)) as [js|] eqn:E; [|done]. intros [= <-].
    cbn [jfix]. constructor. apply osequence_pairs in E. rewrite in_range_obj in Hr. clear -E Hr IH.
    induction E as [|[k t] [k' j] l js [Hk Ht] Hl IHl]; [constructor|]. inversion IH; inversion Hr; subst. simpl in *. subst.
    constructor; [simpl; split; [apply clean_fix|auto]|auto].
Qed.
