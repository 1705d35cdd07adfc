(** * Specification: values as pure trees, events as nested maps.

    This file does not mention the heap.  It is the vocabulary in which the
    properties of events are stated. *)
From Verif Require Export GoMap.

(** A value as a user sees it when following pointers.  [TNil] is a nil
    [*Value] stored in an array or map; [TNilArr] an array whose slice is nil
    (reads as empty); [TNilObj] an object whose map is nil (reads as empty).
    Floats are IEEE-754 bit patterns. *)
Inductive tree : Type :=
| TNil
| TNull
| TBool (b : bool)
| TInt (z : Z)
| TUint (z : Z)
| TFloat (bits : Z)
| TStr (s : string)
| TTime (ns : Z)
| TNilArr
| TArr (l : list tree)
| TNilObj
| TObj (m : list (string * tree)).

(** Induction principle with hypotheses for the elements. *)
Section tree_ind.
  Variable P : tree → Prop.
  Hypothesis HNil : P TNil.
  Hypothesis HNull : P TNull.
  Hypothesis HBool : ∀ b, P (TBool b).
  Hypothesis HInt : ∀ z, P (TInt z).
  Hypothesis HUint : ∀ z, P (TUint z).
  Hypothesis HFloat : ∀ z, P (TFloat z).
  Hypothesis HStr : ∀ s, P (TStr s).
  Hypothesis HTime : ∀ z, P (TTime z).
  Hypothesis HNilArr : P TNilArr.
  Hypothesis HArr : ∀ l, Forall P l → P (TArr l).
  Hypothesis HNilObj : P TNilObj.
  Hypothesis HObj : ∀ m, Forall (λ kv, P kv.2) m → P (TObj m).

  Fixpoint tree_ind' (t : tree) : P t :=
    match t with
    | TNil => HNil
    | TNull => HNull
    | TBool b => HBool b
    | TInt z => HInt z
    | TUint z => HUint z
    | TFloat z => HFloat z
    | TStr s => HStr s
    | TTime z => HTime z
    | TNilArr => HNilArr
    | TArr l =>
        HArr l ((fix go (l : list tree) : Forall P l :=
                   match l with
                   | [] => Forall_nil_2 P
                   | t :: l' => Forall_cons_2 P t l' (tree_ind' t) (go l')
                   end) l)
    | TNilObj => HNilObj
    | TObj m =>
        HObj m ((fix go (m : list (string * tree)) : Forall (λ kv, P kv.2) m :=
                   match m with
                   | [] => Forall_nil_2 _
                   | kv :: m' => Forall_cons_2 (λ kv, P kv.2) kv m' (tree_ind' kv.2) (go m')
                   end) m)
    end.
End tree_ind.

(** The value at a path below a map.  The empty path denotes the whole map.  A
    nil [*Value] does not count as a value. *)
Fixpoint tlookup (path : list string) (m : gomap tree) : option tree :=
  match path with
  | [] => Some (TObj m)
  | k :: rest =>
      match mget k m with
      | None => None
      | Some t =>
          match rest, t with
          | [], TNil => None
          | [], _ => Some t
          | _, TObj mi => tlookup rest mi
          | _, _ => None
          end
      end
  end.

(** Follow a path inside a value. *)
Definition tsub (path : list string) (t : tree) : option tree :=
  match path with
  | [] => Some t
  | _ => match t with TObj m => tlookup path m | _ => None end
  end.

(** Functional update at a (non-empty) path, creating missing objects.
    [Ok None]: a proper prefix exists and is not an object.  [Panic]: a proper
    prefix is a nil [*Value] or an object with a nil map. *)
Fixpoint tput (path : list string) (tv : tree) (m : gomap tree)
  : Outcome (option (gomap tree)) :=
  match path with
  | [] => Ok None
  | [k] => Ok (Some (mset k tv m))
  | k :: rest =>
      match mget k m with
      | None =>
          match tput rest tv [] with
          | Ok (Some m') => Ok (Some (mset k (TObj m') m))
          | o => o
          end
      | Some (TObj mi) =>
          match tput rest tv mi with
          | Ok (Some m') => Ok (Some (mset k (TObj m') m))
          | o => o
          end
      | Some TNil | Some TNilObj => Panic
      | Some _ => Ok None
      end
  end.

(** Lookup as the code performs it: passing through a nil [*Value] panics. *)
Fixpoint tget (path : list string) (m : gomap tree) : Outcome (option tree) :=
  match path with
  | [] => Ok (match m with [] => None | _ => Some (TObj m) end)
  | k :: rest =>
      match mget k m with
      | None => Ok None
      | Some t =>
          match rest, t with
          | [], TNil => Ok None
          | [], _ => Ok (Some t)
          | _, TNil => Panic
          | _, TObj mi => tget rest mi
          | _, _ => Ok None
          end
      end
  end.

(** Trees without nil pointers and nil maps; maps are sorted (canonical). *)
Fixpoint tclean (t : tree) : Prop :=
  match t with
  | TNil | TNilObj => False
  | TArr l => (fix go l := match l with [] => True | t :: l' => tclean t ∧ go l' end) l
  | TObj m =>
      msorted m ∧
      (fix go (m : list (string * tree)) :=
         match m with [] => True | (_, t) :: m' => tclean t ∧ go m' end) m
  | _ => True
  end.

Definition mclean (m : gomap tree) : Prop := tclean (TObj m).

(** [q] and [p] address different, non-nested places. *)
Definition disjoint_paths (p q : list string) : Prop :=
  ¬ p `prefix_of` q ∧ ¬ q `prefix_of` p.

(** ** Laws *)
Lemma tclean_arr l : tclean (TArr l) ↔ Forall tclean l.
Proof.
  simpl. induction l as [|t l IH]; [by split|]. rewrite Forall_cons, IH. done.
Qed.

Lemma mclean_spec m : mclean m ↔ msorted m ∧ ∀ k t, mget k m = Some t → tclean t.
Proof.
  unfold mclean. simpl. split; intros [Hs H]; (split; [done|]).
  - intros k t Hk. apply mget_Some_In in Hk.
    induction m as [|[k' t'] m IH]; simpl in *; [done|].
    destruct Hk as [?|Hk]; simplify_eq; [naive_solver|].
    apply IH; naive_solver.
  - induction m as [|[k' t'] m IH]; simpl in *; [done|].
    destruct Hs as [HF Hs]. split.
    + apply (H k'). by rewrite String.eqb_refl.
    + apply IH; [done|]. intros k t Hk. apply (H k).
      destruct (String.eqb_spec k k') as [->|?]; [|done].
      by rewrite mget_lt_None in Hk.
Qed.

Lemma mclean_nil : mclean [].
Proof. by split. Qed.

Lemma mclean_mset k t m : mclean m → tclean t → mclean (mset k t m).
Proof.
  rewrite !mclean_spec. intros [Hs Hm] Ht. split; [by apply msorted_mset|].
  intros k' t'. rewrite mget_mset. case_match; naive_solver.
Qed.

Lemma mclean_mdel k m : mclean m → mclean (mdel k m).
Proof.
  rewrite !mclean_spec. intros [Hs Hm]. split; [by apply msorted_mdel|].
  intros k' t'. destruct (decide (k' = k)) as [->|?].
  - by rewrite mget_mdel_eq.
  - rewrite mget_mdel_ne by done. naive_solver.
Qed.

Lemma tclean_not_nil t : tclean t → t ≠ TNil.
Proof. by intros H ->. Qed.

Lemma tlookup_clean path m t : mclean m → tlookup path m = Some t → tclean t.
Proof.
  revert m. induction path as [|k rest IH]; intros m Hm; simpl.
  - intros; by simplify_eq.
  - apply mclean_spec in Hm as [_ Hm].
    destruct (mget k m) as [t'|] eqn:Hk; [|done]. apply Hm in Hk.
    destruct rest as [|k2 rest].
    + destruct t'; intros; by simplify_eq.
    + destruct t'; intros; try done. by eapply IH.
Qed.

(** On clean maps the code's lookup is the plain lookup. *)
Lemma tget_clean path m :
  mclean m → path ≠ [] → tget path m = Ok (tlookup path m).
Proof.
  revert m. induction path as [|k rest IH]; intros m Hm Hne; [done|]. simpl.
  apply mclean_spec in Hm as [_ Hm].
  destruct (mget k m) as [t|] eqn:Hk; [|done]. apply Hm in Hk.
  destruct rest as [|k2 rest]; [by destruct t|].
  destruct t; try done. by apply IH.
Qed.

Lemma tlookup_singleton k m :
  tlookup [k] m = match mget k m with Some TNil | None => None | Some t => Some t end.
Proof. simpl. destruct (mget k m) as [[]|]; done. Qed.

Lemma tlookup_cons k k2 rest m :
  tlookup (k :: k2 :: rest) m =
  match mget k m with Some (TObj mi) => tlookup (k2 :: rest) mi | _ => None end.
Proof. simpl. destruct (mget k m) as [[]|]; done. Qed.

Lemma tput_cons k k2 rest tv m :
  tput (k :: k2 :: rest) tv m =
  match mget k m with
  | None =>
      match tput (k2 :: rest) tv [] with
      | Ok (Some m') => Ok (Some (mset k (TObj m') m))
      | o => o
      end
  | Some (TObj mi) =>
      match tput (k2 :: rest) tv mi with
      | Ok (Some m') => Ok (Some (mset k (TObj m') m))
      | o => o
      end
  | Some TNil | Some TNilObj => Panic
  | Some _ => Ok None
  end.
Proof. reflexivity. Qed.

(** Panic freedom and preservation on clean maps. *)
Lemma tput_clean path tv m :
  mclean m → tclean tv → ∃ o, tput path tv m = Ok o ∧ ∀ m', o = Some m' → mclean m'.
Proof.
  revert m. induction path as [|k rest IH]; intros m Hm Htv; simpl.
  { exists None. by split. }
  destruct rest as [|k2 rest].
  { eexists; split; [done|]. intros; simplify_eq. by apply mclean_mset. }
  destruct (mget k m) as [t|] eqn:Hk.
  - pose proof Hm as Hm'. apply mclean_spec in Hm' as [_ Hm']. apply Hm' in Hk.
    destruct t; try (exists None; by split); try done.
    destruct (IH _ Hk Htv) as ([m1|] & -> & H1).
    + eexists; split; [done|]. intros; simplify_eq. apply mclean_mset; [done|]. by apply H1.
    + exists None. by split.
  - destruct (IH _ mclean_nil Htv) as ([m1|] & -> & H1).
    + eexists; split; [done|]. intros; simplify_eq. apply mclean_mset; [done|]. by apply H1.
    + exists None. by split.
Qed.

(** Read-after-write, at the path and below it. *)
Lemma tput_lookup_below path tv m m' sub :
  tput path tv m = Ok (Some m') → tv ≠ TNil →
  tlookup (path ++ sub) m' = tsub sub tv.
Proof.
  revert m m'. induction path as [|k rest IH]; intros m m' Hput Hnil; simpl in Hput; [done|].
  destruct rest as [|k2 rest].
  - simplify_eq. simpl. rewrite mget_mset_eq.
    destruct sub as [|s sub]; simpl; [by destruct tv|]. destruct tv; done.
  - cbn [app]. rewrite tlookup_cons.
    assert (∃ mi m0, tput (k2 :: rest) tv m0 = Ok (Some mi) ∧ m' = mset k (TObj mi) m)
      as (mi & m0 & E & ->).
    { destruct (mget k m) as [[]|]; try done;
        match goal with
        | H : match ?x with _ => _ end = _ |- _ => destruct x as [[?|]|] eqn:?; simplify_eq
        end; do 2 eexists; (split; [eassumption|done]). }
    rewrite mget_mset_eq. by apply (IH m0).
Qed.

Lemma tput_lookup path tv m m' :
  tput path tv m = Ok (Some m') → tv ≠ TNil → tlookup path m' = Some tv.
Proof.
  intros H Hn. pose proof (tput_lookup_below path tv m m' [] H Hn) as H'.
  by rewrite app_nil_r in H'.
Qed.

Lemma tput_nil_frame path tv m' q :
  tput path tv [] = Ok (Some m') → disjoint_paths path q → tlookup q m' = None.
Proof.
  revert m' q. induction path as [|k rest IH]; intros m' q Hput [H1 H2]; simpl in Hput; [done|].
  destruct q as [|kq q]; [by destruct H2; apply prefix_nil|].
  destruct (decide (kq = k)) as [->|Hne].
  - destruct rest as [|k2 rest].
    { exfalso. apply H1. apply prefix_cons, prefix_nil. }
    destruct (tput (k2 :: rest) tv []) as [[m1|]|] eqn:E; simplify_eq.
    assert (disjoint_paths (k2 :: rest) q) as Hd.
    { split; intros Hp; [apply H1|apply H2]; by apply prefix_cons. }
    destruct q as [|kq2 q].
    { exfalso. apply (proj2 Hd), prefix_nil. }
    rewrite tlookup_cons. cbn [mget]. rewrite String.eqb_refl. by apply IH.
  - assert (mget kq m' = None) as Hk.
    { destruct rest as [|k2 rest]; [|repeat case_match]; simplify_eq; simpl;
        by rewrite (proj2 (String.eqb_neq _ _) Hne). }
    simpl. by rewrite Hk.
Qed.

(** Frame: disjoint paths are untouched. *)
Lemma tput_frame path tv m m' q :
  tput path tv m = Ok (Some m') → disjoint_paths path q → tlookup q m' = tlookup q m.
Proof.
  revert m m' q. induction path as [|k rest IH]; intros m m' q Hput [H1 H2]; simpl in Hput; [done|].
  destruct q as [|kq q]; [by destruct H2; apply prefix_nil|].
  destruct (decide (kq = k)) as [->|Hne].
  - destruct rest as [|k2 rest].
    { exfalso. apply H1. apply prefix_cons, prefix_nil. }
    assert (disjoint_paths (k2 :: rest) q) as Hd.
    { split; intros Hp; [apply H1|apply H2]; by apply prefix_cons. }
    destruct q as [|kq2 q].
    { exfalso. apply (proj2 Hd), prefix_nil. }
    rewrite !tlookup_cons.
    destruct (mget k m) as [[]|] eqn:Hk; simplify_eq.
    + destruct (tput (k2 :: rest) tv m0) as [[m1|]|] eqn:E; simplify_eq.
      rewrite mget_mset_eq. eauto.
    + destruct (tput (k2 :: rest) tv []) as [[m1|]|] eqn:E; simplify_eq.
      rewrite mget_mset_eq. by eapply tput_nil_frame.
  - assert (mget kq m' = mget kq m) as Hk.
    { destruct rest as [|k2 rest]; [simplify_eq; by rewrite mget_mset_ne|].
      destruct (mget k m) as [[]|]; simplify_eq;
        repeat case_match; simplify_eq; by rewrite mget_mset_ne. }
    simpl. by rewrite Hk.
Qed.

(** Proper prefixes of the written path read as objects afterwards. *)
Lemma tput_prefix path tv m m' q sub :
  tput path tv m = Ok (Some m') → path = q ++ sub → sub ≠ [] →
  ∃ mi, tlookup q m' = Some (TObj mi).
Proof.
  revert m m' q. induction path as [|k rest IH]; intros m m' q Hput Hp Hs; simpl in Hput; [done|].
  destruct q as [|kq q]; [by eexists|].
  simpl in Hp; simplify_eq.
  destruct (q ++ sub) as [|k2 rest] eqn:Eq.
  { apply app_eq_nil in Eq as [-> ->]. done. }
  assert (∃ mi m0, tput (k2 :: rest) tv m0 = Ok (Some mi) ∧ m' = mset kq (TObj mi) m) as (mi & m0 & E & ->).
    { destruct (mget kq m) as [[]|]; try done;
        match goal with
        | H : match ?x with _ => _ end = _ |- _ => destruct x as [[?|]|] eqn:?; simplify_eq
        end; do 2 eexists; (split; [eassumption|done]). }
  destruct q as [|kq2 q].
  - simpl. rewrite mget_mset_eq. eauto.
  - rewrite tlookup_cons, mget_mset_eq. eapply IH; eauto.
Qed.

(** Exactly when an update is refused. *)
Definition is_object (t : tree) : Prop := match t with TObj _ => True | _ => False end.

Lemma is_object_dec t : {∃ mi, t = TObj mi} + {¬ is_object t}.
Proof. destruct t; try (by right; auto). left; eauto. Qed.

Lemma tput_refused path tv m :
  mclean m → path ≠ [] →
  (tput path tv m = Ok None ↔
   ∃ q sub t, path = q ++ sub ∧ q ≠ [] ∧ sub ≠ [] ∧ tlookup q m = Some t ∧ ¬ is_object t).
Proof.
  revert m. induction path as [|k rest IH]; intros m Hm Hne; [done|].
  destruct rest as [|k2 rest].
  { split; [done|]. intros (q & sub & t & Hp & Hq & Hs & _).
    destruct q as [|? [|]]; simpl in *; simplify_eq. }
  pose proof Hm as Hm'. apply mclean_spec in Hm' as [_ Hm'].
  assert (∀ q sub, k :: k2 :: rest = q ++ sub → q ≠ [] → sub ≠ [] →
    (q = [k] ∧ sub = k2 :: rest) ∨
    ∃ k3 q', q = k :: k3 :: q' ∧ k2 :: rest = (k3 :: q') ++ sub) as Hsplit.
  { intros q sub Hp Hq Hs. destruct q as [|kq [|kq2 q]]; simpl in *; simplify_eq; eauto. }
  rewrite tput_cons. destruct (mget k m) as [t|] eqn:Hk.
  - pose proof (Hm' _ _ Hk) as Ht.
    destruct (is_object_dec t) as [[mi ->]|Hno].
    + specialize (IH mi Ht). split.
      * intros H. assert (tput (k2 :: rest) tv mi = Ok None) as H0.
        { destruct (tput (k2 :: rest) tv _) as [[]|]; by simplify_eq. }
        apply IH in H0 as (q & sub & t & -> & Hq & Hs & Hl & Hno); [|done].
        exists (k :: q), sub, t. repeat split; try done.
        destruct q as [|kq q]; [done|]. rewrite tlookup_cons, Hk. done.
      * intros (q & sub & t & Hp & Hq & Hs & Hl & Hno).
        destruct (Hsplit _ _ Hp Hq Hs) as [[-> ->]|(k3 & q' & -> & Hp')].
        -- rewrite tlookup_singleton, Hk in Hl. by simplify_eq.
        -- rewrite tlookup_cons, Hk in Hl.
           rewrite (proj2 (IH ltac:(done))); [done|].
           exists (k3 :: q'), sub, t. done.
    + split.
      * intros _. exists [k], (k2 :: rest), t. repeat split; try done.
        rewrite tlookup_singleton, Hk. destruct t; done.
      * intros _. destruct t; simpl in *; try done; by destruct Hno.
  - split.
    + intros H. exfalso.
      assert (tput (k2 :: rest) tv [] = Ok None) as H0.
      { destruct (tput (k2 :: rest) tv _) as [[]|]; by simplify_eq. }
      apply (IH [] mclean_nil) in H0 as (q & sub & t & _ & Hq & Hs & Hl & Hno); [|done].
      destruct q; [done|]. simpl in Hl. done.
    + intros (q & sub & t & Hp & Hq & Hs & Hl & Hno). exfalso.
      destruct (Hsplit _ _ Hp Hq Hs) as [[-> ->]|(k3 & q' & -> & Hp')].
      * rewrite tlookup_singleton, Hk in Hl. done.
      * rewrite tlookup_cons, Hk in Hl. done.
Qed.

(** ** Where a path meets nothing to go through *)
(** Following objects along the non-empty path [q] one finds [t], which may be nil. *)
Inductive found_at : list string → gomap tree → tree → Prop :=
| fa_here k m t : mget k m = Some t → found_at [k] m t
| fa_inside k m mi q t : mget k m = Some (TObj mi) → found_at q mi t → found_at (k :: q) m t.
(** A proper part of the path leads to [t]. *)
Definition passes (path : list string) (m : gomap tree) (t : tree) : Prop :=
  ∃ q rest, path = q ++ rest ∧ rest ≠ [] ∧ found_at q m t.
Lemma passes_cons k k2 rest m t : passes (k :: k2 :: rest) m t ↔
  mget k m = Some t ∨ ∃ mi, mget k m = Some (TObj mi) ∧ passes (k2 :: rest) mi t.
Proof.
  split.
  - intros (q & r & E & Hr & Hf). inversion Hf as [k' m' t' H|k' m' mi q' t' H H2]; subst; injection E as <- E.
    + by left.
    + right. exists mi. split; [done|]. by exists q', r.
  - intros [H|(mi & H & q & r & E & Hr & Hf)].
    + exists [k], (k2 :: rest). split; [done|]. split; [done|]. by apply fa_here.
    + exists (k :: q), r. split; [by rewrite E|]. split; [done|]. by eapply fa_inside.
Qed.
Lemma passes_short path m t : (length path ≤ 1)%nat → ¬ passes path m t.
Proof.
  intros Hl (q & r & -> & Hr & Hf). rewrite app_length in Hl. destruct r; [done|]. inversion Hf; subst; simpl in Hl; lia.
Qed.
Lemma passes_empty path t : ¬ passes path [] t.
Proof. intros (q & r & -> & Hr & Hf). by inversion Hf. Qed.
Lemma tget_panics path : ∀ m, tget path m = Panic ↔ passes path m TNil.
Proof.
  induction path as [|k path IH]; intros m.
  { split; [done|]. intros H. by apply passes_short in H; [|simpl; lia]. }
  destruct path as [|k2 rest].
  { split; [|intros H; by apply passes_short in H; [|simpl; lia]]. cbn [tget]. destruct (mget k m) as [[]|]; done. }
  rewrite passes_cons. change (tget (k :: k2 :: rest) m) with
    (match mget k m with None => Ok None | Some t => match t with TNil => Panic | TObj mi => tget (k2 :: rest) mi | _ => Ok None end end).
  destruct (mget k m) as [[]|] eqn:E; (split; [try done|]); try (by intros [?|(? & ? & ?)]).
  - intros _. by left.
  - intros H. right. eexists. split; [done|]. by apply IH.
  - intros [?|(mi & [= <-] & ?)]; [done|]. by apply IH.
Qed.
Lemma tput_panics path tv : ∀ m, tput path tv m = Panic ↔ passes path m TNil ∨ passes path m TNilObj.
Proof.
  induction path as [|k path IH]; intros m.
  { split; [done|]. intros [H|H]; by apply passes_short in H; [|simpl; lia]. }
  destruct path as [|k2 rest].
  { split; [done|]. intros [H|H]; by apply passes_short in H; [|simpl; lia]. }
  rewrite !passes_cons. change (tput (k :: k2 :: rest) tv m) with
    (match mget k m with
     | None => match tput (k2 :: rest) tv [] with Ok (Some m') => Ok (Some (mset k (TObj m') m)) | o => o end
     | Some (TObj mi) => match tput (k2 :: rest) tv mi with Ok (Some m') => Ok (Some (mset k (TObj m') m)) | o => o end
     | Some TNil | Some TNilObj => Panic
     | Some _ => Ok None
     end).
  destruct (mget k m) as [[]|] eqn:E; (split; [try done|]); try (by intros [[?|(? & ? & ?)]|[?|(? & ? & ?)]]); try (intros _; by auto).
  - intros H. assert (tput (k2 :: rest) tv m0 = Panic) as Hp by (by destruct (tput (k2 :: rest) tv m0) as [[]|]).
    apply IH in Hp as [Hp|Hp]; [left|right]; right; by eexists.
  - intros [[?|(mi & [= <-] & H)]|[?|(mi & [= <-] & H)]]; try done.
    + by rewrite (proj2 (IH m0) (or_introl H)).
    + by rewrite (proj2 (IH m0) (or_intror H)).
  - intros H. assert (tput (k2 :: rest) tv [] = Panic) as Hp by (by destruct (tput (k2 :: rest) tv []) as [[]|]).
    apply IH in Hp as [Hp|Hp]; by apply passes_empty in Hp.
Qed.
(** A value at the end of the path: nothing is missing on the way. *)
Lemma tget_some_passes path : ∀ m t x, tget path m = Ok (Some x) → passes path m t → t ≠ TNil ∧ t ≠ TNilObj.
Proof.
  induction path as [|k path IH]; intros m t x E H; [by apply passes_short in H; [|simpl; lia]|].
  destruct path as [|k2 rest]; [by apply passes_short in H; [|simpl; lia]|]. apply passes_cons in H.
  change (tget (k :: k2 :: rest) m) with
    (match mget k m with None => Ok None | Some t => match t with TNil => Panic | TObj mi => tget (k2 :: rest) mi | _ => Ok None end end) in E.
  destruct (mget k m) as [[]|] eqn:Ek; try done.
  destruct H as [[= <-]|(mi & [= <-] & H)]; [done|]. by eapply IH.
Qed.
