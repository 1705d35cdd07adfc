(** * Reading a message: the getters of pkg/serialization/protobuf/event.pb.go. *)
From Verif Require Export ProtobufEnd.
Local Open Scope Z_scope.

(** ** The model *)
(** Receivers may be nil.  Not in the model: a Kind or Message that is a nil pointer to its
    wrapper (a nil *Value_Array), on which the getters of the kind crash; neither FromEvent
    nor Unmarshal makes one. *)
(** event.pb.go:131-143 GetMessage, GetLog ([GetLog] of Protobuf.v, of any receiver). *)
Definition Wrapper_GetLog (m : option pwrapper) : option plog := match m with Some m => GetLog m | None => None end.
(** event.pb.go:195-200 *)
Definition Log_GetObject (m : option plog) : option (pobj pval) := match m with Some m => lg_object m | None => None end.
(** event.pb.go:303-308 *)
Definition GetKind (m : option pval) : pkind pval := match m with Some (PVal k _) => k | None => KNil end.
(** event.pb.go:310-315 (NULL_VALUE is 0, and so is what Null holds, as FromEvent makes it) *)
Definition GetNull (m : option pval) : Z := match GetKind m with KNull z => z | _ => 0 end.
(** event.pb.go:317-322 *)
Definition GetArray (m : option pval) : option (parr pval) := match GetKind m with KArray a => a | _ => None end.
(** event.pb.go:324-329 *)
Definition GetBoolean (m : option pval) : bool := match GetKind m with KBool b => b | _ => false end.
(** event.pb.go:331-336; +0 *)
Definition GetFloat (m : option pval) : Z := match GetKind m with KFloat bits => bits | _ => 0 end.
(** event.pb.go:338-343 *)
Definition GetInteger (m : option pval) : Z := match GetKind m with KInt z => z | _ => 0 end.
(** event.pb.go:345-350 *)
Definition Value_GetObject (m : option pval) : option (pobj pval) := match GetKind m with KObject o => o | _ => None end.
(** event.pb.go:352-357; None is the nil slice *)
Definition GetString_ (m : option pval) : option bytes := match GetKind m with KString s => s | _ => None end.
(** event.pb.go:359-364 *)
Definition GetTimestamp (m : option pval) : Z := match GetKind m with KTime z => z | _ => 0 end.
(** event.pb.go:366-371 *)
Definition GetUnsignedInteger (m : option pval) : Z := match GetKind m with KUint z => z | _ => 0 end.
(** event.pb.go:433-438 *)
Definition GetItems (m : option (parr pval)) : list (option pval) := match m with Some a => pa_items a | None => [] end.
(** event.pb.go:485-490 *)
Definition GetFields (m : option (pobj pval)) : list (string * option pval) := match m with Some o => po_fields o | None => [] end.

(** ** Specification *)
(** A position in a value: which field, which item. *)
Inductive step : Type := Field (k : string) | Item (i : nat).
(** x[k] of a map of values *)
Definition entry (fs : list (string * option pval)) (k : string) : option pval := match mget k fs with Some v => v | None => None end.
(** v.GetObject().GetFields()["a"].GetArray().GetItems()[0] ... *)
Fixpoint walk (v : option pval) (p : list step) : Outcome (option pval) :=
  match p with
  | [] => Ok v
  | Field k :: p => walk (entry (GetFields (Value_GetObject v)) k) p
  | Item i :: p => match GetItems (GetArray v) !! i with Some x => walk x p | None => Panic end
  end.
(** m.GetLog().GetObject().GetFields() *)
Definition top_fields (m : option pwrapper) : list (string * option pval) := GetFields (Log_GetObject (Wrapper_GetLog m)).
(** What is at a position; None if there is no such field. *)
Inductive at_pos : option tree → list step → option tree → Prop :=
| at_here t : at_pos t [] t
| at_field m k p t : at_pos (mget k m) p t → at_pos (Some (TObj m)) (Field k :: p) t
| at_no_fields x k p t : (∀ m, x ≠ Some (TObj m)) → at_pos None p t → at_pos x (Field k :: p) t
| at_item l i y p t : l !! i = Some y → at_pos (Some y) p t → at_pos (Some (TArr l)) (Item i :: p) t.
(** The getters of a value say that it is [t]. *)
Definition reads (v : option pval) (t : option tree) : Prop :=
  (GetKind v = KNil ↔ t = None ∨ t = Some TNil) ∧
  GetNull v = 0 ∧
  GetBoolean v = match t with Some (TBool b) => b | _ => false end ∧
  GetFloat v = match t with Some (TFloat bits) => bits | _ => 0 end ∧
  GetInteger v = match t with Some (TInt z) => z | _ => 0 end ∧
  GetUnsignedInteger v = match t with Some (TUint z) => z | _ => 0 end ∧
  GetTimestamp v = match t with Some (TTime z) => z | _ => 0 end ∧
  GetString_ v = match t with Some (TStr s) => Some (list_ascii_of_string s) | _ => None end ∧
  ((∃ a, GetArray v = Some a) ↔ (∃ l, t = Some (TArr l)) ∨ t = Some TNilArr) ∧
  ((∃ o, Value_GetObject v = Some o) ↔ (∃ m, t = Some (TObj m)) ∨ t = Some TNilObj) ∧
  length (GetItems (GetArray v)) = match t with Some (TArr l) => length l | _ => 0%nat end ∧
  (∀ k, k ∈ map fst (GetFields (Value_GetObject v)) ↔ ∃ m, t = Some (TObj m) ∧ k ∈ map fst m).

(** ** Proofs *)
Definition from_opt (t : option tree) : option pval := match t with Some t => from_tree t | None => None end.
Lemma entry_same fs fs' k : osame (osame psame) (mget k fs) (mget k fs') → osame psame (entry fs k) (entry fs' k).
Proof. unfold entry. intros H. inversion H; [constructor|done]. Qed.
Lemma mget_keys {A} k (m : list (string * A)) : k ∈ map fst m ↔ mget k m ≠ None.
Proof.
  rewrite elem_of_list_In, mget_None_In. unfold mkeys. split; [by intros H H'|]. intros H. destruct (decide (k ∈ map fst m)) as [Hin|Hni].
  - by apply elem_of_list_In.
  - exfalso. apply H. intros Hin. by apply Hni, elem_of_list_In.
Qed.
Lemma from_kind k u v : osame psame (Some (PVal k u)) v → ∃ k', v = Some (PVal k' u) ∧ ksame psame k k'.
Proof. intros H. inversion H as [|x y Hp]; subst. inversion Hp; subst. by eexists. Qed.
Lemma from_obj fs u v : osame psame (Some (PVal (KObject (Some (mkPObj fs []))) u)) v →
  ∃ o, v = Some (PVal (KObject (Some o)) u) ∧ ∀ k, osame (osame psame) (mget k fs) (mget k (po_fields o)).
Proof. intros H. apply from_kind in H as (k' & -> & Hk). inversion Hk as [|a a' Ha|o o' [Ho _]]; subst; [done|]. by exists o'. Qed.
Lemma from_arr l u v : osame psame (Some (PVal (KArray (Some (mkPArr l []))) u)) v →
  ∃ a, v = Some (PVal (KArray (Some a)) u) ∧ Forall2 (osame psame) l (pa_items a).
Proof. intros H. apply from_kind in H as (k' & -> & Hk). inversion Hk as [|a a' [Ha _]|]; subst; [done|]. by exists a'. Qed.
Lemma from_leaf k u v : leaf k = true → osame psame (Some (PVal k u)) v → v = Some (PVal k u).
Proof. intros Hl H. apply from_kind in H as (k' & -> & Hk). inversion Hk; subst; done. Qed.
Lemma no_entry k : k ∉ map fst (@nil (string * option pval)).
Proof. apply not_elem_of_nil. Qed.
Ltac reads_tac :=
  unfold reads; cbn; repeat match goal with |- _ ∧ _ => split end; try done;
  try (split; [by intros [? ?]|by intros [[? ?]|?]]);
  try (split; [done|by intros [?|?]]);
  try (split; [by left|done]); try (split; [by right|done]);
  try (intros k0; split; [by intros ?%elem_of_nil|by intros (? & ? & _)]);
  try (split; [intros _; by right|by intros _; eexists]);
  try (split; [intros _; left; by eexists|by intros _; eexists]).
Lemma reads_from t v : osame psame (from_opt t) v → reads v t.
Proof.
  intros H. destruct t as [t|]; [|inversion H; subst; reads_tac].
  destruct t as [| |b|z|z|z|s|z| |l| |m]; cbn [from_opt from_tree] in H; try (apply from_leaf in H as ->; [reads_tac|done]).
  - inversion H; subst; reads_tac.
  - apply from_arr in H as (a & -> & Ha). reads_tac. apply Forall2_length in Ha. by rewrite <- Ha.
  - apply from_arr in H as (a & -> & Ha). reads_tac. apply Forall2_length in Ha. by rewrite <- Ha, map_length.
  - apply from_obj in H as (o & -> & Ho). reads_tac. intros k. specialize (Ho k). rewrite mget_keys. inversion Ho as [E|]. split; [done|by intros (? & ? & _)].
  - apply from_obj in H as (o & -> & Ho). reads_tac. intros k. specialize (Ho k). rewrite (mget_map from_tree) in Ho. rewrite mget_keys. split.
    + intros Hk'. exists m. split; [done|]. rewrite mget_keys. intros E. rewrite E in Ho. inversion Ho. congruence.
    + intros (m' & [= <-] & Hin). rewrite mget_keys in Hin. intros E. rewrite E in Ho. inversion Ho as [E'|]. by destruct (mget k m).
Qed.
Lemma walk_from p : ∀ t v, osame psame (from_opt t) v →
  (∀ t', at_pos t p t' → ∃ v', walk v p = Ok v' ∧ reads v' t') ∧ ((¬ ∃ t', at_pos t p t') → walk v p = Panic).
Proof.
  induction p as [|[k|i] p IH]; intros t v H.
  - split; [|intros Hn; exfalso; apply Hn; by exists t; constructor]. intros t' Ht. inversion Ht; subst. exists v. split; [done|by apply reads_from].
  - cbn [walk]. assert (∃ t1, osame psame (from_opt t1) (entry (GetFields (Value_GetObject v)) k) ∧ ∀ t', at_pos t1 p t' ↔ at_pos t (Field k :: p) t') as (t1 & H1 & Ha).
    { assert ((∃ m, t = Some (TObj m)) ∨ ∀ m, t ≠ Some (TObj m)) as [[m ->]|Hno].
      { destruct t as [[| | | | | | | | | | |m]|]; try (right; congruence). left. by exists m. }
      - exists (mget k m). split.
        + cbn [from_opt from_tree] in H. apply from_obj in H as (o & -> & Ho). cbn. specialize (Ho k).
          rewrite (mget_map from_tree) in Ho. unfold entry. destruct (mget k m) as [t|]; cbn in *; inversion Ho; subst; [done|constructor].
        + intros t'. split; [by constructor|]. intros Ht. inversion Ht as [| |? ? ? ? Hno|]; subst; [done|]. by destruct (Hno m).
      - exists None. split.
        + assert (mget k (GetFields (Value_GetObject v)) = None) as E.
          { destruct (decide (k ∈ map fst (GetFields (Value_GetObject v)))) as [Hin|Hni].
            - apply reads_from in H as (_ & _ & _ & _ & _ & _ & _ & _ & _ & _ & _ & Hf). apply Hf in Hin as (m & E & _). by destruct (Hno m).
            - destruct (mget k _) eqn:E; [|done]. exfalso. apply Hni, mget_keys. congruence. }
          unfold entry. rewrite E. constructor.
        + intros t'. split; [by apply at_no_fields|]. intros Ht. inversion Ht as [|m| |]; subst; [by destruct (Hno m)|done]. }
    destruct (IH t1 _ H1) as [I1 I2]. split.
    + intros t' Ht. apply I1. by apply Ha.
    + intros Hn. apply I2. intros (t' & Ht). apply Hn. exists t'. by apply Ha.
  - cbn [walk]. destruct (GetItems (GetArray v) !! i) as [x|] eqn:E.
    + assert (∃ l y, t = Some (TArr l) ∧ l !! i = Some y ∧ osame psame (from_tree y) x) as (l & y & -> & Ey & Hx).
      { pose proof (reads_from _ _ H) as (_ & _ & _ & _ & _ & _ & _ & _ & _ & _ & Hl & _).
        assert ((i < length (GetItems (GetArray v)))%nat) as Hi by by eapply lookup_lt_Some.
        destruct t as [[| | | | | | | | |l| |]|]; rewrite Hl in Hi; try lia. exists l.
        cbn [from_opt from_tree] in H. apply from_arr in H as (a & -> & H). cbn in E.
        destruct (lookup_lt_is_Some_2 l i Hi) as [y Ey]. exists y. split; [done|]. split; [done|].
        apply (Forall2_lookup_lr _ _ _ i (from_tree y) x H); [|done]. change (map from_tree l) with (from_tree <$> l). by rewrite list_lookup_fmap, Ey. }
      destruct (IH (Some y) x Hx) as [I1 I2]. split.
      * intros t' Ht. inversion Ht as [| | |? ? y' ? ? Ey' Ht']; subst. assert (y' = y) as -> by congruence. by apply I1.
      * intros Hn. apply I2. intros (t' & Ht). apply Hn. exists t'. by eapply at_item.
    + split; [|done]. intros t' Ht. inversion Ht as [| | |l ? y ? ? Ey]; subst.
      pose proof (reads_from _ _ H) as (_ & _ & _ & _ & _ & _ & _ & _ & _ & _ & Hl & _). apply lookup_ge_None in E.
      apply lookup_lt_Some in Ey. lia.
Qed.
Lemma top_same m msg k : wsame (event_message m) msg → osame psame (from_opt (mget k m)) (entry (top_fields (Some msg)) k).
Proof.
  intros [H _]. cbn in H. unfold top_fields, Wrapper_GetLog, GetLog. inversion H as [|x lg Hl E1 E2]; subst. inversion Hl as [|x2 lg2 Hl2 E3 E4]; subst.
  destruct Hl2 as [Ho _]. cbn [lg_object] in Ho. unfold Log_GetObject. unfold event_object in Ho. destruct m as [|kv m].
  - inversion Ho; subst. cbn. constructor.
  - inversion Ho as [|x3 o Ho' E5 E6]; subst. destruct Ho' as [Ho' _]. cbn [GetFields]. specialize (Ho' k).
    change (po_fields _) with (map (λ kv, (kv.1, from_tree kv.2)) (kv :: m)) in Ho' at 1. rewrite (mget_map from_tree) in Ho'. unfold entry. destruct (mget k (kv :: m)) as [t|]; cbn in *; inversion Ho'; subst; [done|constructor].
Qed.
Lemma top_names m msg k : wsame (event_message m) msg → k ∈ map fst (top_fields (Some msg)) ↔ k ∈ map fst m.
Proof.
  intros [H _]. cbn in H. unfold top_fields, Wrapper_GetLog, GetLog. inversion H as [|x lg Hl E1 E2]; subst. inversion Hl as [|x2 lg2 Hl2 E3 E4]; subst.
  destruct Hl2 as [Ho _]. cbn [lg_object] in Ho. unfold Log_GetObject. unfold event_object in Ho. destruct m as [|kv m].
  - inversion Ho; subst. done.
  - inversion Ho as [|x3 o Ho' E5 E6]; subst. destruct Ho' as [Ho' _]. cbn [GetFields]. specialize (Ho' k).
    change (po_fields _) with (map (λ kv, (kv.1, from_tree kv.2)) (kv :: m)) in Ho' at 1. rewrite (mget_map from_tree) in Ho'. rewrite !mget_keys. destruct (mget k (kv :: m)); cbn in Ho'; inversion Ho'; split; congruence.
Qed.
Lemma reads_nil v : reads v (Some TNil) → reads v None.
Proof.
  unfold reads. intros (H1 & H2 & H3 & H4 & H5 & H6 & H7 & H8 & H9 & H10 & H11 & H12). repeat (split; [done|]).
  split; [by rewrite H1; split; [left|right]|]. repeat (split; [done|]).
  split; [rewrite H9; split; [by intros [[? ?]|?]|by intros [[? ?]|?]]|].
  split; [rewrite H10; split; [by intros [[? ?]|?]|by intros [[? ?]|?]]|]. split; [done|].
  intros k. rewrite H12. split; by intros (? & ? & _).
Qed.
