(** * Converting events to and from map[string]interface{}:
      pkg/serialization/mapinterface/mapinterface.go *)
From Verif Require Export ReflectFacts.
Local Open Scope Z_scope.

(** ** The model *)
(** Types without methods that matter: the ones in interfaceToValue's switch, and
    []interface{}. *)
Definition d_exact (name : string) : tdesc := mkT name true None None.
Definition d_slice : tdesc := mkT "[]interface {}" false None None.
Definition d_any : tdesc := mkT "interface {}" false None None.
Definition d_map : tdesc := d_exact "map[string]interface {}".

(** mapinterface.go:76-107 fromEventValue and 59-74 fromEventValueObject; [None] is a
    nil interface.  [fuel] as in Protobuf.v.  Map entries in key order. *)
Fixpoint mi_fromValue (fuel : nat) (h : heap) (op : option ptr) : Outcome (option gval) :=
  match fuel with
  | O => Panic
  | S f =>
      match op with
      | None => Ok None
      | Some p =>
          obind (deref h (Some p)) (λ v,
            if N.eqb (v_type v) ArrayType then
              obind (omapM (mi_fromValue f h) (match v_arr v with Some l => l | None => [] end))
                (λ items, Ok (Some (GSlice d_slice (map (GIface d_any) items))))
            else if N.eqb (v_type v) BoolType then Ok (Some (GBool (d_exact "bool") (v_bool v)))
            else if N.eqb (v_type v) FloatType then Ok (Some (GFloat (d_exact "float64") (v_float v)))
            else if N.eqb (v_type v) IntegerType then Ok (Some (GInt (d_exact "int64") (v_int v)))
            else if N.eqb (v_type v) ObjectType then
              obind (omapM (λ kv : string * option ptr, obind (mi_fromValue f h kv.2) (λ x, Ok (kv.1, GIface d_any x)))
                       (map_of h (v_obj v)))
                (λ fs, Ok (Some (GMap d_map fs)))
            else if N.eqb (v_type v) StringType then Ok (Some (GString (d_exact "string") (v_str v)))
            else if N.eqb (v_type v) TimestampType then Ok (Some (GTime (d_exact "time.Time") (v_ts v)))
            else if N.eqb (v_type v) UnsignedIntegerType then Ok (Some (GUint (d_exact "uint64") (v_uint v)))
            else if N.eqb (v_type v) NullType then Ok None
            else Panic)
      end
  end.
(** mapinterface.go:55-57 FromEvent: the entries of the map; a nil map has none. *)
Definition mi_FromEvent (fuel : nat) (h : heap) (e : event) : Outcome (list (string * gval)) :=
  obind (Get h e ".") (λ '(h1, op),
    match op with
    | None => Ok []
    | Some p =>
        obind (deref h1 (Some p)) (λ v,
          if N.eqb (v_type v) ObjectType then
            omapM (λ kv : string * option ptr, obind (mi_fromValue fuel h1 kv.2) (λ x, Ok (kv.1, GIface d_any x)))
              (map_of h1 (v_obj v))
          else Panic)
    end).

(** mapinterface.go:47-50: the loop of ToEvent; what Put returns is dropped.  The
    value of a field is allocated here, at its Put. *)
Fixpoint mi_put_all (h : heap) (e : event) (fs : list (string * tree)) : Outcome (heap * event) :=
  match fs with
  | [] => Ok (h, e)
  | (k, t) :: fs' =>
      obind (exec h e (OPut (EscapeKey k) t)) (λ out, mi_put_all (o_heap out) (o_event out) fs')
  end.
(** mapinterface.go:41-53 ToEvent.  [order]: how range goes through fields.Object. *)
Definition mi_ToEvent (lower : string → string) (order : list (string * tree) → list (string * tree))
    (h : heap) (m : list (string * gval)) : rres (heap * event) :=
  match ReflectValue lower (GMap d_map m) with
  | RVal t =>
      match mi_put_all h newEvent (order (match t with TObj fs => fs | _ => [] end)) with
      | Ok r => RVal r
      | Panic => RPanic
      end
  | RErr e => RErr e
  | RPanic => RPanic
  end.

(** ** Specification *)
(** The Go value for a tree; [None]: nil. *)
Fixpoint to_go (t : tree) : option gval :=
  match t with
  | TNil | TNull => None
  | TBool b => Some (GBool (d_exact "bool") b)
  | TInt z => Some (GInt (d_exact "int64") z)
  | TUint z => Some (GUint (d_exact "uint64") z)
  | TFloat z => Some (GFloat (d_exact "float64") z)
  | TStr s => Some (GString (d_exact "string") s)
  | TTime z => Some (GTime (d_exact "time.Time") z)
  | TNilArr => Some (GSlice d_slice [])
  | TArr l => Some (GSlice d_slice (map (λ t, GIface d_any (to_go t)) l))
  | TNilObj => Some (GMap d_map [])
  | TObj m => Some (GMap d_map (map (λ kv, (kv.1, GIface d_any (to_go kv.2))) m))
  end.
Definition go_entries (m : gomap tree) : list (string * gval) :=
  map (λ kv, (kv.1, GIface d_any (to_go kv.2))) m.
(** What a value is after coming back: nil is null, nil slices and maps are empty and
    every nested name is escaped. *)
Fixpoint mi_returned (t : tree) : tree :=
  match t with
  | TNil => TNull
  | TNilArr => TArr []
  | TNilObj => TObj []
  | TArr l => TArr (map mi_returned l)
  | TObj m => TObj (mof_list (map (λ kv, (EscapeKey kv.1, mi_returned kv.2)) m))
  | _ => t
  end.

(** ** Proofs *)
Lemma mi_fromValue_rep h :
  (∀ op t fp, rep h op t fp → ∃ n, ∀ f, (n ≤ f)%nat → mi_fromValue f h op = Ok (to_go t)) ∧
  (∀ ops ts fps, rep_list h ops ts fps → ∃ n, ∀ f, (n ≤ f)%nat →
     omapM (mi_fromValue f h) ops = Ok (map to_go ts)) ∧
  (∀ gm m fps, rep_assoc h gm m fps → ∃ n, ∀ f, (n ≤ f)%nat →
     omapM (λ kv : string * option ptr, obind (mi_fromValue f h kv.2) (λ x, Ok (kv.1, GIface d_any x))) gm
       = Ok (go_entries m)).
Proof.
  apply rep_mutind.
  - exists 1%nat. intros [|f] Hf; [lia|]. done.
  - intros p v t Hp Hs. exists 1%nat. intros [|f] Hf; [lia|]. cbn [mi_fromValue deref]. rewrite Hp. cbn [obind].
    unfold scalar_tree in Hs. destruct (v_obj v); [done|].
    destruct (N.eqb_spec (v_type v) NullType) as [->|]; [by simplify_eq|].
    destruct (N.eqb_spec (v_type v) BoolType) as [->|]; [by simplify_eq|].
    destruct (N.eqb_spec (v_type v) FloatType) as [->|]; [by simplify_eq|].
    destruct (N.eqb_spec (v_type v) IntegerType) as [->|]; [by simplify_eq|].
    destruct (N.eqb_spec (v_type v) StringType) as [->|]; [by simplify_eq|].
    destruct (N.eqb_spec (v_type v) TimestampType) as [->|]; [by simplify_eq|].
    destruct (N.eqb_spec (v_type v) UnsignedIntegerType) as [->|]; [by simplify_eq|]. done.
  - intros p v Hp Ht Ho Ha. exists 1%nat. intros [|f] Hf; [lia|]. cbn [mi_fromValue deref]. rewrite Hp. cbn [obind].
    rewrite Ht. simpl. rewrite Ha. done.
  - intros p v ops ts fps Hp Ht Ho Ha Hr (n & IH). exists (S n). intros [|f] Hf; [lia|].
    cbn [mi_fromValue deref]. rewrite Hp. cbn [obind]. rewrite Ht. simpl. rewrite Ha.
    rewrite IH by lia. simpl. by rewrite map_map.
  - intros p v Hp Ht Ho. exists 1%nat. intros [|f] Hf; [lia|]. cbn [mi_fromValue deref]. rewrite Hp. cbn [obind].
    rewrite Ht. simpl. rewrite Ho. done.
  - intros p v r gm m fps Hp Ht Ho Hr Hs Ha (n & IH). exists (S n). intros [|f] Hf; [lia|].
    cbn [mi_fromValue deref]. rewrite Hp. cbn [obind]. rewrite Ht, Ho. simpl. rewrite Hr.
    rewrite IH by lia. done.
  - exists 0%nat. done.
  - intros op ops t ts fp fps Hr (n1 & IH1) Hl (n2 & IH2). exists (Nat.max n1 n2). intros f Hf.
    simpl. rewrite IH1, IH2 by lia. done.
  - exists 0%nat. done.
  - intros k op gm t m fp fps Hr (n1 & IH1) Hl (n2 & IH2). exists (Nat.max n1 n2). intros f Hf.
    simpl. rewrite IH1 by lia. simpl. rewrite IH2 by lia. done.
Qed.

Lemma mi_FromEvent_rep h e m fp : ev_rep h e m fp →
  ∃ n, ∀ f, (n ≤ f)%nat → mi_FromEvent f h e = Ok (go_entries m).
Proof.
  intros Hev. unfold mi_FromEvent, Get. change (keyToPath ".") with (@nil string).
  pose proof (get_path_ref [] h e m fp Hev) as Hg. cbn [tget] in Hg.
  destruct m as [|kv m].
  - exists 0%nat. intros f _. rewrite Hg. done.
  - destruct Hg as (h' & p & fpt & -> & Hr & _). cbn [obind].
    inversion Hr as [|? v ? ? Hs| | | |? v r gm ? fps Hp Ht Ho Hgm Hso Ha]; subst.
    + exfalso. unfold scalar_tree in Hs. destruct (v_obj v); [done|].
      repeat match type of Hs with (if ?b then _ else _) = _ => destruct b; [done|] end. done.
    + destruct (proj2 (proj2 (mi_fromValue_rep h')) _ _ _ Ha) as (n & Hn). exists n. intros f Hf.
      cbn [deref]. rewrite Hp. cbn [obind]. rewrite Ht, Ho. simpl (N.eqb _ _). cbn [map_of].
      rewrite Hgm. rewrite Hn by done. done.
Qed.

(** Converting the Go value of a tree. *)
Lemma conv_to_go lower t : conv lower true (GIface d_any (to_go t)) = RVal (mi_returned t).
Proof.
  induction t as [| | | | | | | | |l IH| |m IH] using tree_ind'; try done.
  - simpl. unfold by_kind. simpl.
    rewrite (proj2 (rmapM_Forall2 _ _ (map mi_returned l))); [done|].
    induction IH as [|t l Ht Hl IHl]; simpl; constructor; [exact Ht|exact IHl].
  - simpl.
    rewrite (proj2 (rmapM_Forall2 _ _ (map (λ kv, (EscapeKey kv.1, mi_returned kv.2)) m))); [done|].
    induction IH as [|[k t] m Ht Hm IHm]; simpl; constructor; [|exact IHm].
    cbn [snd fst] in *. change (match to_go t with Some x => conv lower true x | None => RVal TNull end) with
      (conv lower true (GIface d_any (to_go t))). rewrite Ht. done.
Qed.
Lemma ReflectValue_entries lower m : ReflectValue lower (GMap d_map (go_entries m)) =
  RVal (TObj (mof_list (map (λ kv, (EscapeKey kv.1, mi_returned kv.2)) m))).
Proof. exact (conv_to_go lower (TObj m)). Qed.

Lemma drop_EscapeKey k : drop_backslashes (EscapeKey k) = drop_backslashes k.
Proof.
  rewrite EscapeKey_replace. induction k as [|c k IH]; [done|]. cbn [replace_dots drop_backslashes].
  destruct (Ascii.eqb_spec c c_dot) as [->|Hd]; simpl; [by rewrite IH|]. by rewrite IH.
Qed.
Lemma put_field_escaped m k t : put_field m (EscapeKey k, t) = put_field m (k, t).
Proof. unfold put_field. simpl. by rewrite drop_EscapeKey. Qed.

Lemma mi_put_all_ref fs : ∀ h e m fp, ev_rep h e m fp →
  Forall (λ kv, tsorted kv.2 ∧ kv.2 ≠ TNil) fs →
  ∃ h' e' fp', mi_put_all h e fs = Ok (h', e') ∧ ev_rep h' e' (fold_left put_field fs m) fp'.
Proof.
  induction fs as [|[k t] fs IH]; intros h e m fp Hev Hf; cbn [mi_put_all]; [by eauto|].
  apply Forall_cons in Hf as [[Hs Hn] Hf]. simpl in Hs, Hn.
  destruct (put_escaped_ref h e m fp k t Hev Hs Hn) as (out & fp1 & -> & Hev1). simpl. by eapply IH.
Qed.

Lemma mirrors_tree lower v : ∀ ifc t, mirrors lower ifc v t → tsorted t ∧ t ≠ TNil.
Proof.
  assert (∀ l, Forall (λ kv : string * tree, tsorted kv.2) l → tsorted (TObj (mof_list l))) as Hobj.
  { intros l Hl. rewrite tsorted_obj. split; [apply msorted_mof_list|].
    apply Forall_forall. intros [k t] Hin.
    assert (∀ (l : list (string * tree)) m0, Forall (λ kv, tsorted kv.2) m0 → Forall (λ kv, tsorted kv.2) l →
      Forall (λ kv, tsorted kv.2) (fold_left (λ m kv, mset kv.1 kv.2 m) l m0)) as Hfold.
    { clear. induction l as [|[k t] l IH]; intros m0 Hm Hl; [done|]. simpl. apply Forall_cons in Hl as [Ht Hl].
      apply IH; [|done]. clear -Hm Ht. simpl in Ht. induction m0 as [|[k' t'] m0 IHm]; simpl; [by repeat constructor|].
      apply Forall_cons in Hm as [Ht' Hm]. destruct (String.compare k k'); repeat constructor; auto. }
    specialize (Hfold l [] ltac:(constructor) Hl). rewrite Forall_forall in Hfold. apply (Hfold (k, t) Hin). }
  induction v as [d b|d z|d z|d z|d z|d s|d z|d l IH|d l IH|d|d x IH|d|d x IH|d l IH|d] using gval_ind';
    intros ifc t H; try (inversion H; subst; try done; by eauto).
  - inversion H as [| | | | | | | | | | | |? ? ? ts He Hl| |]; subst; [done|]. split; [|done]. rewrite tsorted_arr.
    clear H. revert IH. induction Hl as [|x t l ts Hx Hl IHl]; intros IH; [constructor|].
    apply Forall_cons in IH as [IHx IH]. constructor; [by eapply IHx|by apply IHl].
  - inversion H as [| | | | | | | | | | | | |? ? ? ts He Hl|]; subst; [done|]. split; [|done]. apply Hobj.
    clear H. revert IH. induction Hl as [|x t l ts [_ Hx] Hl IHl]; intros IH; [constructor|].
    apply Forall_cons in IH as [IHx IH]. constructor; [by eapply IHx|by apply IHl].
  - inversion H as [| | | | | | | | | | | | | |? ? ? ts He Hl]; subst; [done|]. split; [|done]. apply Hobj.
    clear H He. revert ts Hl. induction l as [|[f v] l IHl]; intros ts Hl; [inversion Hl; constructor|].
    apply Forall_cons in IH as [IHx IH]. specialize (IHl IH). simpl in IHx.
    inversion Hl; subst; eauto; constructor; eauto. all: simpl; first [done|by eapply IHx].
Qed.

Lemma mof_list_Permutation {A} (l : list (string * A)) : NoDup (map fst l) → Permutation (mof_list l) l.
Proof.
  intros Hnd. apply NoDup_Permutation.
  - apply (NoDup_fmap_1 fst). apply msorted_NoDup, msorted_mof_list.
  - by apply (NoDup_fmap_1 fst).
  - intros [k t]. rewrite !elem_of_list_In. split; intros Hin.
    + apply mget_In in Hin; [|apply msorted_mof_list]. unfold mof_list in Hin.
      destruct (decide (k ∈ map fst l)) as [Hk|Hk].
      * apply elem_of_list_fmap in Hk as ([k' t'] & Heq & Hin'). simpl in Heq. subst k'.
        apply elem_of_list_In in Hin'.
        rewrite (mget_fold_mset_in k t' l) in Hin by done. by simplify_eq.
      * rewrite mget_fold_mset_notin in Hin; [done|]. by rewrite <- elem_of_list_In.
    + apply mget_Some_In. by apply mget_fold_mset_in.
Qed.
Lemma fold_put_escaped l : ∀ m, fold_left put_field (map (λ kv : string * tree, (EscapeKey kv.1, kv.2)) l) m = fold_left put_field l m.
Proof. induction l as [|[k t] l IH]; intros m; [done|]. simpl. by rewrite put_field_escaped, IH. Qed.

(** What ToEvent builds, whatever the order of the two ranges. *)
Lemma mi_ToEvent_ok lower order h m : (∀ l, Permutation (order l) l) →
  NoDup (map fst m) → go_value (GMap d_map m) → calm (GMap d_map m) →
  (∃ ts, Forall2 (λ kv t, mirrors lower true kv.2 t) m ts ∧ ¬ unsupported true (GMap d_map m) ∧
    ∃ h' e' fp' l, mi_ToEvent lower order h m = RVal (h', e') ∧ Permutation l (zip (map fst m) ts) ∧
      ev_rep h' e' (fold_left put_field l []) fp') ∨
  (unsupported true (GMap d_map m) ∧ ∃ e, mi_ToEvent lower order h m = RErr e).
Proof.
  intros Hord Hnd Hg Hc. pose proof (conv_sound lower _ Hg Hc true) as Hs. unfold mi_ToEvent, ReflectValue.
  destruct (conv lower true (GMap d_map m)) as [t|e|]; cbn [sound] in Hs; [|by right; eauto|done]. left.
  destruct Hs as [Hm Hn].
  destruct (mirrors_tree _ _ _ _ Hm) as [Hso _].
  inversion Hm as [? ? ? Hn1 He1| | | | | | | | | | | | |? ? ? l He Hl|]; subst; [done|]. simpl in Hl.
  rewrite tsorted_obj in Hso. destruct Hso as [_ Hso].
  exists (map snd l).
  assert (l = map (λ kv, (EscapeKey kv.1, kv.2)) (zip (map fst m) (map snd l))) as Hlz.
  { clear -Hl. induction Hl as [|[k x] [n t] m l [Hk Hx] Hl IHl]; [done|]. simpl in *. subst n. f_equal. done. }
  assert (NoDup (map fst l)) as Hndl.
  { assert (map fst l = map EscapeKey (map fst m)) as ->.
    { clear -Hl. induction Hl as [|[k x] [n t] m l [Hk Hx] Hl IHl]; [done|]. simpl in *. by f_equal. }
    apply (NoDup_fmap_2_strong EscapeKey); [|done]. intros; by apply EscapeKey_inj. }
  assert (Permutation (order (mof_list l)) l) as Hpl by (etrans; [apply Hord|by apply mof_list_Permutation]).
  assert (Forall (λ kv : string * tree, tsorted kv.2 ∧ kv.2 ≠ TNil) (order (mof_list l))) as Hok.
  { rewrite Hpl. clear -Hl. induction Hl as [|[k x] [n t] m l [_ Hx] Hl IHl]; constructor; [|done].
    by eapply mirrors_tree. }
  split_and!.
  - clear -Hl. induction Hl as [|[k x] [n t] m l [_ Hx] Hl IHl]; simpl; constructor; done.
  - done.
  - destruct (mi_put_all_ref _ h newEvent [] [] (conj eq_refl eq_refl) Hok) as (h' & e' & fp' & Hp & Hev).
    rewrite Hp. remember (order (mof_list l)) as ol eqn:Hol. clear Hol. rewrite Hlz in Hpl.
    destruct (Permutation_map_inv _ _ Hpl) as (l2 & Hl2 & Hpl2).
    exists h', e', fp', l2. split_and!; [done|by symmetry|].
    rewrite Hl2 in Hev. rewrite fold_put_escaped in Hev. done.
Qed.
