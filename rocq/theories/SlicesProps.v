(** * Property theorems for arrays as Go slices: C62.
    Slices.v gives every [Value.Array] a slice header, a capacity and a backing array;
    [view s] is the world with the elements each slice shows. *)
From Verif Require Import SlicesFacts.

(** What one [append] does to the slice it returns and to every other slice, however
    they are aliased: it overwrites the slot behind the old length if there is spare
    capacity, and touches nothing else. *)
Theorem C62_append_exactly : ∀ (A A' : list (list (option nat))) s t x spare,
  slice_ok A s → go_append A (Some s) x spare = (A', t) →
  contents_of A' t = contents_of A s ++ [x] ∧
  ∀ u i, slice_ok A u →
    contents_of A' u !! i =
      if decide (sl_len s < sl_cap s ∧ sl_back u = sl_back s ∧ sl_off u + i = sl_off s + sl_len s ∧ i < sl_len u)
      then Some x else contents_of A u !! i.
Proof.
  intros A A' s t x spare Hs E. split.
  { destruct (go_append_self _ _ _ _ _ _ E) as [-> _]; [|done]. by intros ? [= <-]. }
  intros u i Hu. cbn [go_append] in E. destruct (decide (sl_len s < sl_cap s)) as [Hlt|Hge].
  - injection E as <- <-. unfold contents_of at 1. rewrite poke_lookup.
    destruct (decide (sl_back u = sl_back s)) as [Eb|Eb].
    + destruct Hs as (? & l & El & Hl), Hu as (Hu1 & l' & El' & Hl').
      rewrite El. cbn. destruct (decide _) as [(_ & _ & Hi & Hlen)|Hn].
      * rewrite lookup_take by done. rewrite lookup_drop, Hi, list_lookup_insert by lia. done.
      * unfold contents_of. rewrite Eb, El. cbn. destruct (decide (i < sl_len u)) as [Hi|Hi].
        -- rewrite !lookup_take, !lookup_drop by done. rewrite list_lookup_insert_ne; [done|]. intros ?. apply Hn. lia.
        -- rewrite !lookup_take_ge by lia. done.
    + rewrite decide_False by tauto. done.
  - rewrite decide_False by tauto. unfold fresh_slice in E. injection E as <- <-. by rewrite contents_app.
Qed.
Print Assumptions C62_append_exactly.

(** Every world can be laid out in memory with any spare capacities, one backing array
    per value. *)
Theorem C62_any_layout : ∀ w (capacity : nat → nat) growth,
  view (boxed w capacity growth) = w ∧ unshared (boxed w capacity growth).
Proof. apply boxed_ok. Qed.
Print Assumptions C62_any_layout.

(** Processor code that shares slices only as [s[i:j:j]], whatever else it does, finds
    in every array exactly the elements put there; so does whoever runs next. *)
Theorem C62_arrays_are_lists : ∀ (A : Type) (c : sprog A) s pe, unshared s →
  match run_s true c s pe with
  | SOk s' pe' a => run_prog (abs c) (view s) pe = Ok (view s', pe', a) ∧ unshared s'
  | SPan => run_prog (abs c) (view s) pe = Panic
  | Shared => True
  end.
Proof.
  intros A c s pe Hu. destruct (sim_inv _ _ (simulation c s pe Hu)) as [(s' & pe' & a & E & -> & Hu')|[[E ->]|E]];
    by rewrite E.
Qed.
Print Assumptions C62_arrays_are_lists.

(** eventutil.Append. *)
Theorem C62_eventutil_append : ∀ key item s pe, unshared s →
  match run_s false (eventutil_append_s key item) s pe with
  | SOk s' pe' err => run_prog (eventutil_append key item) (view s) pe = Ok (view s', pe', err) ∧ unshared s'
  | SPan => run_prog (eventutil_append key item) (view s) pe = Panic
  | Shared => False
  end.
Proof.
  intros key item s pe Hu.
  pose proof (no_slicing_agrees (eventutil_append_s key item) s pe (eventutil_append_s_no_slicing key item) Hu) as G.
  rewrite eventutil_append_s_run in G. exact G.
Qed.
Print Assumptions C62_eventutil_append.

(** Pipelines of built-in processors, with on_failure handlers at any depth. *)
Theorem C62_pipelines : ∀ lo up sp pl s evt, same_pipe lo up sp pl → unshared s →
  match Process_s false sp s evt with
  | SOk s' _ (out, err) => Process pl (view s) evt = Ok (view s', out, err) ∧ unshared s'
  | SPan => Process pl (view s) evt = Panic
  | Shared => False
  end.
Proof. apply Process_same. Qed.
Print Assumptions C62_pipelines.

(** So capacities and the growth policy of [append] are not observable. *)
Theorem C62_capacities_do_not_show : ∀ lo up sp pl w evt cap1 growth1 cap2 growth2,
  same_pipe lo up sp pl →
  match Process_s false sp (boxed w cap1 growth1) evt, Process_s false sp (boxed w cap2 growth2) evt with
  | SOk s1 _ r1, SOk s2 _ r2 => view s1 = view s2 ∧ r1 = r2
  | SPan, SPan => True
  | _, _ => False
  end.
Proof.
  intros lo up sp pl w evt n1 g1 n2 g2 Hsame.
  destruct (boxed_ok w n1 g1) as [V1 U1], (boxed_ok w n2 g2) as [V2 U2].
  pose proof (Process_same lo up sp pl _ evt Hsame U1) as H1. pose proof (Process_same lo up sp pl _ evt Hsame U2) as H2.
  rewrite V1 in H1. rewrite V2 in H2.
  destruct (Process_s false sp (boxed w n1 g1) evt) as [s1 ? [o1 e1]| |], (Process_s false sp (boxed w n2 g2) evt) as [s2 ? [o2 e2]| |];
    try done.
  - destruct H1 as [H1 _], H2 as [H2 _]. split; congruence.
  - destruct H1 as [H1 _]. by rewrite H1 in H2.
  - destruct H2 as [H2 _]. by rewrite H1 in H2.
Qed.
Print Assumptions C62_capacities_do_not_show.

(** Examples: an event with the array "a", one element, and three spare slots. *)
Definition ex_vals : list Value := [mkString "first"; mkArray [Some 0]].
Definition ex_world : world :=
  mkWorld (mkHeap ex_vals [ [("a", Some 1)] ]) [mkEvent (Some 0)] [] [].
Definition ex_state : sworld := boxed ex_world (λ _, 3) [].
Definition id_str : string → string := λ s, s.
Definition ex_pipe : spipeline :=
  mkSPipeline "p" [SProc "p.0" "" false false [] (cfg_sprog id_str id_str (CfAppend false "a" "x" false));
                   SProc "p.1" "" false false [] (cfg_sprog id_str id_str (CfAppend false "b" "y" false))] [].

Example C62_ex : unshared ex_state ∧ view ex_state = ex_world ∧
  same_pipe id_str id_str ex_pipe
    (mkPipeline "p" [PProc "p.0" "" false false [] (append_process (mkAppend "a" "x"));
                     PProc "p.1" "" false false [] (append_process (mkAppend "b" "y"))] []) ∧
  match Process_s false ex_pipe ex_state (Some 0) with
  | SOk s _ (Some 0, None) => map v_arr (hvals (w_heap (view s))) =
      [None; Some [Some 0; Some 2]; None; Some [Some 4]; None]
  | _ => False
  end.
Proof.
  split; [apply boxed_ok|]. split; [apply boxed_ok|]. split; [|vm_compute; reflexivity].
  split; [done|]. split; [|apply List.Forall2_nil].
  apply List.Forall2_cons; [|apply List.Forall2_cons; [|apply List.Forall2_nil]].
  - apply (same_proc_intro id_str id_str "p.0" "" false false [] [] (CfAppend false "a" "x" false)). apply List.Forall2_nil.
  - apply (same_proc_intro id_str id_str "p.1" "" false false [] [] (CfAppend false "b" "y" false)). apply List.Forall2_nil.
Qed.

(** Sharing a slice with spare capacity, as in
    [evt.Put("b", event.Array(evt.Get("a").Array...))]: appending to "b" changes the
    last element of "a". *)
Definition share_a (k : sprog (option goerr)) : sprog (option goerr) :=
  SGet "a" (λ a, SLoad a (λ v,
    SNewArray [] (λ p, SSlice (Some p) a 0 (length (arr_of v)) (length (arr_of v) + 3)
      (SPut "b" (Some p) (λ _ _, k))))).
Definition ex_share : sprog (option goerr) :=
  share_a (SNew (mkString "x") (λ x, SNew (mkString "y") (λ y,
    SGet "a" (λ a, SAppend a (Some x) (SGet "b" (λ b, SAppend b (Some y) (SRet None))))))).
Theorem C62_shared_slice_refuted : ∃ s' pe',
  run_s false ex_share ex_state (mkPEvent (Some 0) false false) = SOk s' pe' None ∧
  (* 3 is "x", appended to "a"; 4 is "y", appended to "b" *)
  map v_arr (hvals (w_heap (view s'))) = [None; Some [Some 0; Some 4]; Some [Some 0; Some 4]; None; None] ∧
  run_s true ex_share ex_state (mkPEvent (Some 0) false false) = Shared.
Proof. eexists _, _. split; [vm_compute; reflexivity|]. split; vm_compute; reflexivity. Qed.
Print Assumptions C62_shared_slice_refuted.
