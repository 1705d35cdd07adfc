(** * Keys and paths: pkg/event/event.go keyToPath/pathString and
      pkg/eventutil/event.go EscapeKey. *)
From Verif Require Export GoBase.

Definition c_bs : ascii := "\"%char.
Definition c_dot : ascii := "."%char.
Definition c_slash : ascii := "/"%char.

(** ** The model *)

(** event.go:162-180: the body of the [for] loop of keyToPath followed by the
    final flush.  [paths], [scratch], [escape] are the loop variables.  A Go
    string is a byte string, a Coq [string] is a list of bytes. *)
Fixpoint kp_loop (key : string) (paths : list string) (scratch : string) (escape : bool)
  : list string :=
  match key with
  | EmptyString =>
      (* event.go:182-184 *)
      if String.eqb scratch "" then paths else paths ++ [scratch]
  | String c rest =>
      if Ascii.eqb c c_bs then kp_loop rest paths scratch true
      else if Ascii.eqb c c_dot then
        if escape then kp_loop rest paths (scratch +:+ ".") false
        else if String.eqb scratch "" then kp_loop rest paths scratch false
        else kp_loop rest (paths ++ [scratch]) "" false
      else kp_loop rest paths (scratch +:+ String c "") false
  end.

(** event.go:158-187 keyToPath.  A nil and an empty path are not distinguished
    by any caller. *)
Definition keyToPath (key : string) : list string := kp_loop key [] "" false.

(** event.go:189-204 pathString. *)
Definition pathString (path : list string) : string :=
  match path with
  | [] => "/"
  | [x] => "/" +:+ x
  | _ => fold_left (λ sb elem, sb +:+ "/" +:+ elem) path ""
  end.

(** strings.IndexByte(key, '.') == -1. *)
Fixpoint has_dot (s : string) : bool :=
  match s with
  | EmptyString => false
  | String c s' => Ascii.eqb c c_dot || has_dot s'
  end.

(** strings.ReplaceAll(key, ".", `\.`). *)
Fixpoint replace_dots (s : string) : string :=
  match s with
  | EmptyString => ""
  | String c s' =>
      if Ascii.eqb c c_dot then String c_bs (String c_dot (replace_dots s'))
      else String c (replace_dots s')
  end.

(** pkg/eventutil/event.go:58-63 EscapeKey. *)
Definition EscapeKey (key : string) : string :=
  if negb (has_dot key) then key else replace_dots key.

(** ** The specification, independent of the loop *)

(** Cut at every dot whose preceding byte is not a backslash. [prev] says
    whether the byte before the argument is a backslash. *)
Fixpoint split_unescaped (prev : bool) (key : string) : list string :=
  match key with
  | EmptyString => [""]
  | String c rest =>
      if Ascii.eqb c c_dot && negb prev then "" :: split_unescaped false rest
      else match split_unescaped (Ascii.eqb c c_bs) rest with
           | h :: t => String c h :: t
           | [] => []
           end
  end.

Fixpoint drop_backslashes (s : string) : string :=
  match s with
  | EmptyString => ""
  | String c s' => if Ascii.eqb c c_bs then drop_backslashes s' else String c (drop_backslashes s')
  end.

Definition spec_path (key : string) : list string :=
  filter (λ s, s ≠ "") (map drop_backslashes (split_unescaped false key)).

(** Names joined by dots. *)
Fixpoint join_dots (l : list string) : string :=
  match l with
  | [] => ""
  | [x] => x
  | x :: l' => x +:+ "." +:+ join_dots l'
  end.

Fixpoint has_backslash (s : string) : bool :=
  match s with
  | EmptyString => false
  | String c s' => Ascii.eqb c c_bs || has_backslash s'
  end.

(** ** Proofs *)
Lemma sapp_nil_r (s : string) : s +:+ "" = s.
Proof. induction s as [|c s IH]; simpl; [done|by rewrite IH]. Qed.

Lemma sapp_assoc (a b c : string) : (a +:+ b) +:+ c = a +:+ (b +:+ c).
Proof. induction a as [|x a IH]; simpl; [done|by rewrite IH]. Qed.

Lemma sapp_nonempty (a : string) c b : a +:+ String c b ≠ "".
Proof. destruct a; done. Qed.

Lemma split_unescaped_nonempty b k : split_unescaped b k ≠ [].
Proof.
  revert b. induction k as [|c k IH]; simpl; intros b; [done|].
  destruct (_ && _); [done|]. specialize (IH (Ascii.eqb c c_bs)).
  destruct (split_unescaped _ k); done.
Qed.

Definition prepend_head (s : string) (l : list string) : list string :=
  match l with h :: t => (s +:+ h) :: t | [] => [] end.

Lemma kp_loop_spec key paths scratch esc :
  kp_loop key paths scratch esc =
  paths ++ filter (λ s, s ≠ "")
             (prepend_head scratch (map drop_backslashes (split_unescaped esc key))).
Proof.
  revert paths scratch esc. induction key as [|c key IH]; intros paths scratch esc; simpl.
  - rewrite sapp_nil_r. destruct (String.eqb_spec scratch "") as [->|Hne]; simpl.
    + by rewrite app_nil_r.
    + rewrite filter_cons_True by done. done.
  - destruct (Ascii.eqb_spec c c_bs) as [->|Hbs]; simpl.
    { rewrite IH. pose proof (split_unescaped_nonempty true key) as Hn.
      destruct (split_unescaped true key) as [|h t]; done. }
    destruct (Ascii.eqb_spec c c_dot) as [->|Hdot]; simpl.
    + destruct esc; simpl.
      * rewrite IH. pose proof (split_unescaped_nonempty false key) as Hn.
        destruct (split_unescaped false key) as [|h t]; [done|]. simpl.
        by rewrite sapp_assoc.
      * rewrite sapp_nil_r.
        pose proof (split_unescaped_nonempty false key) as Hn.
        destruct (String.eqb_spec scratch "") as [->|Hne].
        -- rewrite IH, (filter_cons_False _ ""); [|naive_solver].
           destruct (split_unescaped false key); done.
        -- rewrite IH, (filter_cons_True _ scratch); [|naive_solver].
           rewrite <- app_assoc. simpl. destruct (split_unescaped false key); done.
    + rewrite IH. pose proof (split_unescaped_nonempty false key) as Hn.
      destruct (split_unescaped false key) as [|h t]; [done|]. simpl.
      rewrite (proj2 (Ascii.eqb_neq _ _) Hbs). by rewrite sapp_assoc.
Qed.

Lemma keyToPath_spec key : keyToPath key = spec_path key.
Proof.
  unfold keyToPath, spec_path. rewrite kp_loop_spec. simpl.
  by destruct (map drop_backslashes (split_unescaped false key)).
Qed.

Lemma has_backslash_drop s : has_backslash (drop_backslashes s) = false.
Proof.
  induction s as [|c s IH]; simpl; [done|].
  destruct (Ascii.eqb c c_bs) eqn:E; [done|]. simpl. by rewrite E, IH.
Qed.

Lemma keyToPath_segments key :
  Forall (λ s, s ≠ "" ∧ has_backslash s = false) (keyToPath key).
Proof.
  rewrite keyToPath_spec. unfold spec_path. rewrite List.Forall_forall.
  intros s Hs. apply elem_of_list_In, elem_of_list_filter in Hs as [Hne Hin].
  split; [done|]. apply elem_of_list_In, in_map_iff in Hin as (s' & <- & _).
  apply has_backslash_drop.
Qed.

Lemma EscapeKey_replace k : EscapeKey k = replace_dots k.
Proof.
  unfold EscapeKey. destruct (has_dot k) eqn:E; [done|]. simpl.
  induction k as [|c k IH]; simpl in *; [done|].
  apply orb_false_iff in E as [E1 E2]. rewrite E1. f_equal. auto.
Qed.

(** The loop over an escaped name: no separator is seen. *)
Lemma kp_loop_escaped k rest paths scratch esc :
  (has_backslash k = false) →
  (k = "" → esc = false) →
  kp_loop (replace_dots k +:+ rest) paths scratch esc =
  kp_loop rest paths (scratch +:+ k) false.
Proof.
  revert scratch esc. induction k as [|c k IH]; simpl; intros scratch esc Hb He.
  { rewrite sapp_nil_r, He by done. done. }
  apply orb_false_iff in Hb as [Hb1 Hb2].
  destruct (Ascii.eqb_spec c c_dot) as [->|Hd]; simpl.
  - rewrite IH by done. by rewrite sapp_assoc.
  - rewrite Hb1, (proj2 (Ascii.eqb_neq _ _) Hd), IH by done. by rewrite sapp_assoc.
Qed.

Lemma kp_loop_join names paths :
  Forall (λ s, s ≠ "" ∧ has_backslash s = false) names →
  kp_loop (join_dots (map EscapeKey names)) paths "" false = paths ++ names.
Proof.
  intros HF. revert paths. induction HF as [|x l [Hne Hb] HF IH]; intros paths.
  { simpl. by rewrite app_nil_r. }
  destruct l as [|y l].
  - simpl. rewrite EscapeKey_replace, <- (sapp_nil_r (replace_dots x)).
    rewrite kp_loop_escaped by done. simpl.
    by rewrite (proj2 (String.eqb_neq _ _) Hne).
  - change (join_dots (map EscapeKey (x :: y :: l)))
      with (EscapeKey x +:+ "." +:+ join_dots (map EscapeKey (y :: l))).
    rewrite EscapeKey_replace, kp_loop_escaped by done. cbn [String.append kp_loop].
    simpl (Ascii.eqb _ _). cbv iota.
    rewrite (proj2 (String.eqb_neq _ _) Hne).
    rewrite IH. by rewrite <- app_assoc.
Qed.

Lemma keyToPath_join names :
  Forall (λ s, s ≠ "" ∧ has_backslash s = false) names →
  keyToPath (join_dots (map EscapeKey names)) = names.
Proof. intros HF. unfold keyToPath. by rewrite kp_loop_join. Qed.

Lemma kp_loop_escaped_any k paths scratch esc :
  kp_loop (replace_dots k) paths scratch esc =
  kp_loop "" paths (scratch +:+ drop_backslashes k) false.
Proof.
  revert scratch esc. induction k as [|c k IH]; intros scratch esc.
  { simpl. by rewrite sapp_nil_r. }
  cbn [replace_dots drop_backslashes].
  destruct (Ascii.eqb_spec c c_dot) as [->|Hd].
  - cbn [kp_loop]. simpl (Ascii.eqb _ _). cbv iota. rewrite IH. by rewrite sapp_assoc.
  - cbn [kp_loop]. rewrite (proj2 (Ascii.eqb_neq _ _) Hd).
    destruct (Ascii.eqb c c_bs); rewrite IH; [done|by rewrite sapp_assoc].
Qed.

(** What an escaped name addresses, for every name. *)
Lemma keyToPath_EscapeKey k :
  keyToPath (EscapeKey k) =
  if String.eqb (drop_backslashes k) "" then [] else [drop_backslashes k].
Proof.
  rewrite EscapeKey_replace. unfold keyToPath. rewrite kp_loop_escaped_any. simpl.
  by destruct (String.eqb _ _).
Qed.

Lemma drop_backslashes_id k : has_backslash k = false ↔ drop_backslashes k = k.
Proof.
  split.
  - induction k as [|c k IH]; simpl; [done|]. intros H.
    apply orb_false_iff in H as [-> H2]. f_equal. auto.
  - intros H. rewrite <- H. apply has_backslash_drop.
Qed.

Lemma keyToPath_EscapeKey_iff k :
  keyToPath (EscapeKey k) = [k] ↔ k ≠ "" ∧ has_backslash k = false.
Proof.
  rewrite keyToPath_EscapeKey, drop_backslashes_id.
  destruct (String.eqb_spec (drop_backslashes k) "") as [E|E].
  - split; [done|]. intros [Hne H]. congruence.
  - split; [intros H; simplify_eq; split; congruence|]. intros [_ ->]. done.
Qed.

(** Escaping twice (as mapinterface.ToEvent does) addresses the same field. *)
Lemma keyToPath_EscapeKey_twice k :
  keyToPath (EscapeKey (EscapeKey k)) = keyToPath (EscapeKey k).
Proof.
  rewrite !keyToPath_EscapeKey, EscapeKey_replace.
  assert (drop_backslashes (replace_dots k) = drop_backslashes k) as ->; [|done].
  induction k as [|c k IH]; simpl; [done|].
  destruct (Ascii.eqb_spec c c_dot) as [->|Hd]; simpl.
  - by rewrite IH.
  - by rewrite IH.
Qed.

(** pathString: slash-separated, as a right fold. *)
Lemma pathString_spec path :
  pathString path =
  match path with [] => "/" | _ => fold_right (λ e s, "/" +:+ e +:+ s) "" path end.
Proof.
  destruct path as [|x [|y l]]; simpl; [done|by rewrite sapp_nil_r|].
  assert (∀ l s, fold_left (λ sb elem : string, sb +:+ String "/" elem) l s
          = s +:+ fold_right (λ e s : string, String "/" (e +:+ s)) "" l) as H.
  { clear. induction l as [|z l IH]; intros s; simpl; [by rewrite sapp_nil_r|].
    rewrite IH. rewrite sapp_assoc. done. }
  rewrite H. cbn [String.append]. rewrite !sapp_assoc. done.
Qed.
