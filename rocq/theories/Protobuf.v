(** * Converting events to and from protobuf messages:
      pkg/serialization/protobuf/protobuf.go *)
From Verif Require Export WireSame EventSeq.
Local Open Scope Z_scope.

(** ** The model *)
Definition obind {A B} (x : Outcome A) (f : A → Outcome B) : Outcome B :=
  match x with Ok a => f a | Panic => Panic end.
(** Run [f] on every element, left to right. *)
Definition omapM {A B} (f : A → Outcome B) : list A → Outcome (list B) :=
  fix go l :=
    match l with
    | [] => Ok []
    | x :: l' => obind (f x) (λ y, obind (go l') (λ ys, Ok (y :: ys)))
    end.

(** protobuf.go:39-108 fromEventValue and 110-127 fromEventValueObject, reading the
    value through pointer [op].  [fuel] bounds the recursion: a value containing
    itself overflows the Go stack, here [Panic].  Map entries are visited in key
    order; the result is a map, so the order does not show. *)
Fixpoint fromEventValue (fuel : nat) (h : heap) (op : option ptr) : Outcome (option pval) :=
  match fuel with
  | O => Panic
  | S f =>
      match op with
      | None => Ok None
      | Some p =>
          obind (deref h (Some p)) (λ v,
            let ret k := Ok (Some (PVal k [])) in
            if N.eqb (v_type v) ArrayType then
              obind (omapM (fromEventValue f h) (match v_arr v with Some l => l | None => [] end))
                (λ items, ret (KArray (Some (mkPArr items []))))
            else if N.eqb (v_type v) BoolType then ret (KBool (v_bool v))
            else if N.eqb (v_type v) FloatType then ret (KFloat (v_float v))
            else if N.eqb (v_type v) IntegerType then ret (KInt (v_int v))
            else if N.eqb (v_type v) ObjectType then
              obind (omapM (λ kv : string * option ptr, obind (fromEventValue f h kv.2) (λ x, Ok (kv.1, x)))
                       (map_of h (v_obj v)))
                (λ fs, ret (KObject (Some (mkPObj fs []))))
            else if N.eqb (v_type v) StringType then ret (KString (Some (list_ascii_of_string (v_str v))))
            else if N.eqb (v_type v) TimestampType then ret (KTime (v_ts v))
            else if N.eqb (v_type v) UnsignedIntegerType then ret (KUint (v_uint v))
            else if N.eqb (v_type v) NullType then ret (KNull 0)
            else Panic)
      end
  end.

(** protobuf.go:29-37 FromEvent, with fromEventValueObject on evt.Get("."). *)
Definition FromEvent (fuel : nat) (h : heap) (e : event) : Outcome pwrapper :=
  obind (Get h e ".") (λ '(h1, op),
    let ret o := Ok (mkPWrapper (Some (Some (mkPLog o []))) []) in
    match op with
    | None => ret None
    | Some p =>
        obind (deref h1 (Some p)) (λ v,
          if N.eqb (v_type v) ObjectType then
            obind (omapM (λ kv : string * option ptr, obind (fromEventValue fuel h1 kv.2) (λ x, Ok (kv.1, x)))
                     (map_of h1 (v_obj v)))
              (λ fs, ret (Some (mkPObj fs [])))
          else Panic)
    end).

(** protobuf.go:142-173 toEventValue: the value built, as a tree.  A nil *Value or
    one without a kind panics; so do the typed nils Value_Array{nil} and
    Value_Object{nil}.  [event.NullValue] (a shared, never mutated cell) is a fresh
    null here. *)
Definition to_kind (to : pval → Outcome tree) (k : pkind pval) : Outcome tree :=
  let to' (x : option pval) := match x with Some v => to v | None => Panic end in
  match k with
  | KNil => Panic
  | KNull _ => Ok TNull
  | KArray None => Panic
  | KArray (Some (mkPArr items _)) => obind (omapM to' items) (λ l, Ok (TArr l))
  | KBool b => Ok (TBool b)
  | KFloat v => Ok (TFloat v)
  | KInt z => Ok (TInt z)
  | KObject None => Panic
  | KObject (Some (mkPObj fs _)) =>
      obind (omapM (λ kv : string * option pval,
                      match kv with (k, x) => obind (to' x) (λ t, Ok (EscapeKey k, t)) end) fs)
        (λ l, Ok (TObj (mof_list l)))
  | KString s => Ok (TStr (string_of_list_ascii (match s with Some s => s | None => [] end)))
  | KTime z => Ok (TTime z)
  | KUint z => Ok (TUint z)
  end.
Fixpoint to_value (v : pval) : Outcome tree := match v with PVal k _ => to_kind to_value k end.
Definition toEventValue (x : option pval) : Outcome tree :=
  match x with Some v => to_value v | None => Panic end.

(** protobuf.go:135-138: the loop of ToLogEvent; what Put returns is dropped. *)
Fixpoint put_all (h : heap) (e : event) (fs : list (string * option pval)) : Outcome (heap * event) :=
  match fs with
  | [] => Ok (h, e)
  | (k, x) :: fs' =>
      obind (toEventValue x) (λ t,
        obind (exec h e (OPut (EscapeKey k) t)) (λ out, put_all (o_heap out) (o_event out) fs'))
  end.
(** protobuf.go:129-140 ToLogEvent; [po_fields] is in the order [range] visits. *)
Definition ToLogEvent (h : heap) (l : option plog) : Outcome (heap * option event) :=
  match l with
  | None => Ok (h, None)
  | Some l =>
      match lg_object l with
      | None => Ok (h, None)
      | Some o => obind (put_all h newEvent (po_fields o)) (λ '(h', e), Ok (h', Some e))
      end
  end.
(** event.pb.go GetLog (77-95). *)
Definition GetLog (m : pwrapper) : option plog := match mw_log m with Some l => l | None => None end.

(** ** Specification *)
(** The message for a tree. *)
Definition from_list (from : tree → option pval) : list tree → list (option pval) := map from.
Fixpoint from_tree (t : tree) : option pval :=
  match t with
  | TNil => None
  | TNull => Some (PVal (KNull 0) [])
  | TBool b => Some (PVal (KBool b) [])
  | TInt z => Some (PVal (KInt z) [])
  | TUint z => Some (PVal (KUint z) [])
  | TFloat z => Some (PVal (KFloat z) [])
  | TStr s => Some (PVal (KString (Some (list_ascii_of_string s))) [])
  | TTime z => Some (PVal (KTime z) [])
  | TNilArr => Some (PVal (KArray (Some (mkPArr [] []))) [])
  | TArr l => Some (PVal (KArray (Some (mkPArr (map from_tree l) []))) [])
  | TNilObj => Some (PVal (KObject (Some (mkPObj [] []))) [])
  | TObj m => Some (PVal (KObject (Some (mkPObj (map (λ kv, (kv.1, from_tree kv.2)) m) []))) [])
  end.
(** What comes back inside a value: nil slices and maps become empty ones, and every
    field name is escaped. *)
Fixpoint returned (t : tree) : tree :=
  match t with
  | TNilArr => TArr []
  | TNilObj => TObj []
  | TArr l => TArr (map returned l)
  | TObj m => TObj (mof_list (map (λ kv, (EscapeKey kv.1, returned kv.2)) m))
  | _ => t
  end.
(** No nil *Value anywhere. *)
Fixpoint no_nil_tree (t : tree) : Prop :=
  match t with
  | TNil => False
  | TArr l => (fix go l := match l with [] => True | t :: l' => no_nil_tree t ∧ go l' end) l
  | TObj m => (fix go (m : list (string * tree)) :=
                 match m with [] => True | (_, t) :: m' => no_nil_tree t ∧ go m' end) m
  | _ => True
  end.

(** ** Proofs *)
Lemma no_nil_arr l : no_nil_tree (TArr l) ↔ Forall no_nil_tree l.
Proof. simpl. induction l as [|t l IH]; [by split|]. rewrite Forall_cons, IH. done. Qed.
Lemma no_nil_obj m : no_nil_tree (TObj m) ↔ Forall (λ kv, no_nil_tree kv.2) m.
Proof. simpl. induction m as [|[k t] m IH]; [by split|]. rewrite Forall_cons, IH. done. Qed.

Lemma omapM_ok {A B} (f : A → Outcome B) (g : A → B) l :
  Forall (λ x, f x = Ok (g x)) l → omapM f l = Ok (map g l).
Proof. induction 1 as [|x l Hx Hl IH]; [done|]. simpl. by rewrite Hx, IH. Qed.
Lemma omapM_panic {A B} (f : A → Outcome B) l :
  omapM f l = Panic ↔ ∃ x, x ∈ l ∧ f x = Panic.
Proof.
  induction l as [|x l IH]; simpl.
  - split; [done|]. intros (? & H & _). by apply elem_of_nil in H.
  - destruct (f x) as [y|] eqn:E; simpl.
    + destruct (omapM f l) as [ys|] eqn:E2; simpl.
      * split; [done|]. intros (z & Hz & Hp). apply elem_of_cons in Hz as [->|Hz]; [congruence|].
        assert (Ok ys = Panic) as H by (apply IH; eauto). done.
      * destruct IH as [IH _]. destruct (IH eq_refl) as (z & ? & ?). split; [|done].
        intros _. exists z. split; [by apply elem_of_list_further|done].
    + split; [|done]. intros _. exists x. split; [apply elem_of_list_here|done].
Qed.

(** fromEventValue computes [from_tree], with enough fuel. *)
Lemma fromEventValue_rep h :
  (∀ op t fp, rep h op t fp → ∃ n, ∀ f, (n ≤ f)%nat → fromEventValue f h op = Ok (from_tree t)) ∧
  (∀ ops ts fps, rep_list h ops ts fps → ∃ n, ∀ f, (n ≤ f)%nat →
     omapM (fromEventValue f h) ops = Ok (map from_tree ts)) ∧
  (∀ gm m fps, rep_assoc h gm m fps → ∃ n, ∀ f, (n ≤ f)%nat →
     omapM (λ kv : string * option ptr, obind (fromEventValue f h kv.2) (λ x, Ok (kv.1, x))) gm
       = Ok (map (λ kv, (kv.1, from_tree kv.2)) m)).
Proof.
  apply rep_mutind.
  - exists 1%nat. intros [|f] Hf; [lia|]. done.
  - intros p v t Hp Hs. exists 1%nat. intros [|f] Hf; [lia|]. cbn [fromEventValue deref]. rewrite Hp. cbn [obind].
    unfold scalar_tree in Hs. destruct (v_obj v); [done|].
    destruct (N.eqb_spec (v_type v) NullType) as [->|]; [by simplify_eq|].
    destruct (N.eqb_spec (v_type v) BoolType) as [->|]; [by simplify_eq|].
    destruct (N.eqb_spec (v_type v) FloatType) as [->|]; [by simplify_eq|].
    destruct (N.eqb_spec (v_type v) IntegerType) as [->|]; [by simplify_eq|].
    destruct (N.eqb_spec (v_type v) StringType) as [->|]; [by simplify_eq|].
    destruct (N.eqb_spec (v_type v) TimestampType) as [->|]; [by simplify_eq|].
    destruct (N.eqb_spec (v_type v) UnsignedIntegerType) as [->|]; [by simplify_eq|]. done.
  - intros p v Hp Ht Ho Ha. exists 1%nat. intros [|f] Hf; [lia|]. cbn [fromEventValue deref]. rewrite Hp. cbn [obind].
    rewrite Ht. simpl. rewrite Ha. done.
  - intros p v ops ts fps Hp Ht Ho Ha Hr (n & IH). exists (S n). intros [|f] Hf; [lia|].
    cbn [fromEventValue deref]. rewrite Hp. cbn [obind]. rewrite Ht. simpl. rewrite Ha.
    rewrite IH by lia. done.
  - intros p v Hp Ht Ho. exists 1%nat. intros [|f] Hf; [lia|]. cbn [fromEventValue deref]. rewrite Hp. cbn [obind].
    rewrite Ht. simpl. rewrite Ho. done.
  - intros p v r gm m fps Hp Ht Ho Hr Hs Ha (n & IH). exists (S n). intros [|f] Hf; [lia|].
    cbn [fromEventValue deref]. rewrite Hp. cbn [obind]. rewrite Ht, Ho. simpl. rewrite Hr.
    rewrite IH by lia. done.
  - exists 0%nat. done.
  - intros op ops t ts fp fps Hr (n1 & IH1) Hl (n2 & IH2). exists (Nat.max n1 n2). intros f Hf.
    simpl. rewrite IH1, IH2 by lia. done.
  - exists 0%nat. done.
  - intros k op gm t m fp fps Hr (n1 & IH1) Hl (n2 & IH2). exists (Nat.max n1 n2). intros f Hf.
    simpl. rewrite IH1 by lia. simpl. rewrite IH2 by lia. done.
Qed.

(** The object FromEvent stores: nil for an event that shows nothing. *)
Definition event_object (m : gomap tree) : option (pobj pval) :=
  match m with [] => None | _ => Some (mkPObj (map (λ kv, (kv.1, from_tree kv.2)) m) []) end.
Definition event_message (m : gomap tree) : pwrapper :=
  mkPWrapper (Some (Some (mkPLog (event_object m) []))) [].

Lemma FromEvent_rep h e m fp : ev_rep h e m fp →
  ∃ n, ∀ f, (n ≤ f)%nat → FromEvent f h e = Ok (event_message m).
Proof.
  intros Hev. unfold FromEvent, Get. change (keyToPath ".") with (@nil string).
  pose proof (get_path_ref [] h e m fp Hev) as Hg. cbn [tget] in Hg.
  destruct m as [|kv m].
  - exists 0%nat. intros f _. rewrite Hg. done.
  - destruct Hg as (h' & p & fpt & -> & Hr & _). cbn [obind].
    inversion Hr as [|? v ? ? Hs| | | |? v r gm ? fps Hp Ht Ho Hgm Hso Ha]; subst.
    + exfalso. unfold scalar_tree in Hs. destruct (v_obj v); [done|].
      repeat match type of Hs with (if ?b then _ else _) = _ => destruct b; [done|] end. done.
    + destruct (proj2 (proj2 (fromEventValue_rep h')) _ _ _ Ha) as (n & Hn). exists n. intros f Hf.
      cbn [deref]. rewrite Hp. cbn [obind]. rewrite Ht, Ho. simpl (N.eqb _ _). cbn [map_of].
      rewrite Hgm. rewrite Hn by done. done.
Qed.

(** toEventValue undoes it up to [returned]. *)
Lemma to_from t : no_nil_tree t → toEventValue (from_tree t) = Ok (returned t).
Proof.
  induction t as [| | | | | | | | |l IH| |m IH] using tree_ind'; intros Hn; try done.
  - simpl. f_equal. f_equal. apply string_of_list_ascii_of_string.
  - apply no_nil_arr in Hn. simpl.
    rewrite (omapM_ok _ (λ x, match toEventValue x with Ok t => t | Panic => TNil end)).
    + simpl. f_equal. f_equal. rewrite map_map. apply map_ext_in. intros t Ht.
      rewrite Forall_forall in IH, Hn. apply elem_of_list_In in Ht. by rewrite IH by auto.
    + apply Forall_forall. intros x Hx. apply elem_of_list_fmap in Hx as (t & -> & Ht).
      rewrite Forall_forall in IH, Hn. fold (toEventValue (from_tree t)). by rewrite IH by auto.
  - apply no_nil_obj in Hn. simpl.
    rewrite (omapM_ok _ (λ kv, (EscapeKey kv.1, match toEventValue kv.2 with Ok t => t | Panic => TNil end))).
    + simpl. f_equal. f_equal. f_equal. rewrite map_map. apply map_ext_in. intros [k t] Ht. simpl.
      rewrite Forall_forall in IH, Hn. apply elem_of_list_In in Ht.
      specialize (IH _ Ht). specialize (Hn _ Ht). simpl in *. by rewrite IH by auto.
    + apply Forall_forall. intros x Hx. apply elem_of_list_fmap in Hx as ([k t] & -> & Ht). simpl.
      rewrite Forall_forall in IH, Hn.
      specialize (IH _ Ht). specialize (Hn _ Ht). simpl in *. fold (toEventValue (from_tree t)). by rewrite IH by auto.
Qed.

(** *** EscapeKey never identifies two names *)
Lemma replace_dots_inj a b : replace_dots a = replace_dots b → a = b.
Proof.
  revert b. induction a as [|c a IH]; intros [|c' b]; simpl.
  - done.
  - by destruct (Ascii.eqb c' c_dot).
  - by destruct (Ascii.eqb c c_dot).
  - destruct (Ascii.eqb_spec c c_dot) as [->|Hc], (Ascii.eqb_spec c' c_dot) as [->|Hc']; intros H; simplify_eq.
    + f_equal. auto.
    + exfalso. destruct b as [|c2 b]; simpl in *; [done|]. destruct (Ascii.eqb_spec c2 c_dot); simplify_eq.
    + exfalso. destruct a as [|c2 a]; simpl in *; [done|]. destruct (Ascii.eqb_spec c2 c_dot); simplify_eq.
    + f_equal. auto.
Qed.
Lemma EscapeKey_inj a b : EscapeKey a = EscapeKey b → a = b.
Proof. rewrite !EscapeKey_replace. apply replace_dots_inj. Qed.
