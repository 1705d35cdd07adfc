(** * Go slices: headers, capacities and backing arrays.

    EventHeap keeps the elements of an array value in the value ([v_arr]).  In Go
    [Value.Array] (pkg/event/value.go:62-72) is a slice: a window on a backing array,
    possibly with spare capacity behind it, and [append] writes into that spare
    capacity when there is any.  This file models programs at that level, [abs] maps
    them to the programs of Processors.v, and the simulation shows that EventHeap's
    view is right as long as no slice with spare capacity is shared between values. *)
From Verif Require Export Builtins.

(** ** The model *)
(** A non-nil slice: backing array, first element, length, capacity. *)
Record slice : Type := mkSlice { sl_back : nat; sl_off : nat; sl_len : nat; sl_cap : nat }.
Notation arena := (list (list (option nat))) (only parsing).

Definition contents_of (A : arena) (s : slice) : list (option ptr) :=
  take (sl_len s) (drop (sl_off s) (default [] (A !! sl_back s))).
(** What a [Value.Array] shows; [None] is the nil slice. *)
Definition contents (A : arena) (s : option slice) : option (list (option ptr)) :=
  match s with None => None | Some s => Some (contents_of A s) end.
Definition elems (A : arena) (s : option slice) : list (option ptr) :=
  match s with None => [] | Some s => contents_of A s end.

(** Writing one slot of a backing array. *)
Definition poke (A : arena) (b i : nat) (x : option ptr) : arena :=
  <[b := <[i := x]> (default [] (A !! b))]> A.
(** A new backing array holding [l] and [spare] zero slots. *)
Definition fresh_slice (A : arena) (l : list (option ptr)) (spare : nat) : arena * slice :=
  (A ++ [l ++ replicate spare None], mkSlice (length A) 0 (length l) (length l + spare)).

(** The predeclared [append(s, x)]: in place when there is room, else into a new array
    whose spare capacity is up to the implementation ([spare]). *)
Definition go_append (A : arena) (s : option slice) (x : option ptr) (spare : nat) : arena * slice :=
  match s with
  | None => fresh_slice A [x] spare
  | Some s =>
      if decide (sl_len s < sl_cap s)
      then (poke A (sl_back s) (sl_off s + sl_len s) x,
            mkSlice (sl_back s) (sl_off s) (S (sl_len s)) (sl_cap s))
      else fresh_slice A (contents_of A s ++ [x]) spare
  end.

(** The state: a world whose values carry no arrays, the [Array] field of every value,
    the backing arrays, and the implementation's choices of spare capacity. *)
Record sworld : Type := mkSW {
  sw_world : world;
  sw_hdr : list (option slice);
  sw_arena : arena;
  sw_spare : list nat
}.
Definition next_spare (s : sworld) : nat := hd 0 (sw_spare s).

(** Processor code (pkg/processor/api.go:28-42), with slices. *)
Inductive sprog (A : Type) : Type :=
| SRet (a : A)
| SPut (key : string) (v : option ptr) (k : option ptr → option goerr → sprog A)
| STryPut (key : string) (v : option ptr) (k : option ptr → option goerr → sprog A)
| SGet (key : string) (k : option ptr → sprog A)
| SDelete (key : string) (k : option ptr → sprog A)
| SCancel (k : sprog A)
| SDrop (k : sprog A)
| SNew (v : Value) (k : ptr → sprog A)              (* &event.Value{...}, Array not given *)
| SNewArray (l : list (option ptr)) (k : ptr → sprog A)  (* event.Array(l...), l a new slice *)
| SLoad (p : option ptr) (k : Value → sprog A)      (* the fields and the elements of *p *)
| SStore (p : option ptr) (v : Value) (k : sprog A) (* the fields of *p except Array *)
| SAppend (p : option ptr) (x : option ptr) (k : sprog A)  (* p.Array = append(p.Array, x) *)
| SAppendAll (p q : option ptr) (k : sprog A)
    (* for _, v := range q.Array { p.Array = append(p.Array, v) } *)
| SSlice (p q : option ptr) (i j m : nat) (k : sprog A)    (* p.Array = q.Array[i:j:m] *)
| SNewMap (k : mref → sprog A)
| SMapRead (r : option mref) (k : gomap (option ptr) → sprog A)
| SMapWrite (r : option mref) (key : string) (v : option ptr) (k : sprog A)
| SMapDelete (r : option mref) (key : string) (k : sprog A)
| SInput (k : nat → sprog A)
| SPanic.

Arguments SRet {A}. Arguments SPut {A}. Arguments STryPut {A}. Arguments SGet {A}.
Arguments SDelete {A}. Arguments SCancel {A}. Arguments SDrop {A}. Arguments SNew {A}.
Arguments SNewArray {A}. Arguments SLoad {A}. Arguments SStore {A}. Arguments SAppend {A}.
Arguments SAppendAll {A}. Arguments SSlice {A}. Arguments SNewMap {A}. Arguments SMapRead {A}.
Arguments SMapWrite {A}. Arguments SMapDelete {A}. Arguments SInput {A}. Arguments SPanic {A}.

(** [Shared]: the program sliced an existing slice otherwise than as [s[i:j:j]] within
    its length, so that the result may have spare capacity in common with it (only
    reported when running in [strict] mode). *)
Inductive sres (A : Type) : Type :=
| SOk (s : sworld) (pe : pevent) (a : A)
| SPan
| Shared.
Arguments SOk {A}. Arguments SPan {A}. Arguments Shared {A}.

(** Values an operation of event.go allocated have the nil slice. *)
Definition grow_hdr (hdr : list (option slice)) (h : heap) : list (option slice) :=
  hdr ++ replicate (length (hvals h) - length hdr) None.
Definition with_world (s : sworld) (w : world) : sworld :=
  mkSW w (grow_hdr (sw_hdr s) (w_heap w)) (sw_arena s) (sw_spare s).

Definition hdr_of (s : sworld) (p : option ptr) : option (option slice) :=
  match p with None => None | Some p => sw_hdr s !! p end.
Definition append_at (s : sworld) (p : ptr) (cur : option slice) (x : option ptr) : sworld :=
  let '(A, t) := go_append (sw_arena s) cur x (next_spare s) in
  mkSW (sw_world s) (<[p := Some t]> (sw_hdr s)) A (tl (sw_spare s)).
(** The range loop: the header [r] of the ranged slice is evaluated once, elements [i],
    [i+1], ... ([n] of them) are read as the loop runs. *)
Fixpoint append_range (s : sworld) (p : ptr) (r : slice) (i n : nat) : sworld :=
  match n with
  | O => s
  | S n =>
      let x := default None (default [] (sw_arena s !! sl_back r) !! (sl_off r + i)) in
      append_range (append_at s p (default None (sw_hdr s !! p)) x) p r (S i) n
  end.

Fixpoint run_s {A} (strict : bool) (c : sprog A) (s : sworld) (pe : pevent) : sres A :=
  let w := sw_world s in
  match c with
  | SRet a => SOk s pe a
  | SPut key v k =>
      match evt_of w pe with
      | None => SPan
      | Some (i, e) =>
          match Put (w_heap w) e key v with
          | Panic => SPan
          | Ok r => run_s strict (k (put_old r) (put_err r))
                      (with_world s (mkWorld (put_heap r) (<[i := put_event r]> (w_events w)) (w_env w) (w_log w))) pe
          end
      end
  | STryPut key v k =>
      match evt_of w pe with
      | None => SPan
      | Some (i, e) =>
          match TryPut (w_heap w) e key v with
          | Panic => SPan
          | Ok r => run_s strict (k (put_old r) (put_err r))
                      (with_world s (mkWorld (put_heap r) (<[i := put_event r]> (w_events w)) (w_env w) (w_log w))) pe
          end
      end
  | SGet key k =>
      match evt_of w pe with
      | None => SPan
      | Some (i, e) =>
          match Get (w_heap w) e key with
          | Panic => SPan
          | Ok (h, v) => run_s strict (k v) (with_world s (set_heap w h)) pe
          end
      end
  | SDelete key k =>
      match evt_of w pe with
      | None => SPan
      | Some (i, e) =>
          match EvDelete (w_heap w) e key with
          | Panic => SPan
          | Ok (h, v) => run_s strict (k v) (with_world s (set_heap w h)) pe
          end
      end
  | SCancel k => run_s strict k s (pe_Cancel pe)
  | SDrop k => run_s strict k s (pe_Drop pe)
  | SNew v k =>
      let '(h, p) := alloc_val (w_heap w) (with_arr v None) in
      run_s strict (k p) (with_world s (set_heap w h)) pe
  | SNewArray l k =>
      let '(h, p) := alloc_val (w_heap w) (mkArray []) in
      let s1 := with_world s (set_heap w h) in
      match l with
      | [] => run_s strict (k p) s1 pe
      | _ =>
          let '(A, t) := fresh_slice (sw_arena s) l (next_spare s) in
          run_s strict (k p) (mkSW (sw_world s1) (<[p := Some t]> (sw_hdr s1)) A (tl (sw_spare s))) pe
      end
  | SLoad p k =>
      match deref (w_heap w) p, hdr_of s p with
      | Ok v, Some t => run_s strict (k (with_arr v (contents (sw_arena s) t))) s pe
      | _, _ => SPan
      end
  | SStore p v k =>
      match p with
      | Some q => if decide (q < length (hvals (w_heap w)))
                  then run_s strict k (mkSW (set_heap w (set_val (w_heap w) q (with_arr v None)))
                                            (sw_hdr s) (sw_arena s) (sw_spare s)) pe
                  else SPan
      | None => SPan
      end
  | SAppend p x k =>
      match p, hdr_of s p with
      | Some p, Some t => run_s strict k (append_at s p t x) pe
      | _, _ => SPan
      end
  | SAppendAll p q k =>
      match hdr_of s q with
      | None => SPan
      | Some None => run_s strict k s pe
      | Some (Some r) =>
          match sl_len r, p, hdr_of s p with
          | O, _, _ => run_s strict k s pe
          | n, Some p, Some _ => run_s strict k (append_range s p r 0 n) pe
          | _, _, _ => SPan
          end
      end
  | SSlice p q i j m k =>
      match p, hdr_of s p, hdr_of s q with
      | Some p, Some _, Some t =>
          match t with
          | None => if decide (i = 0 ∧ j = 0 ∧ m = 0)
                    then run_s strict k (mkSW w (<[p := None]> (sw_hdr s)) (sw_arena s) (sw_spare s)) pe
                    else SPan
          | Some t =>
              if strict && negb (bool_decide (i ≤ j ∧ j = m ∧ j ≤ sl_len t)) then Shared
              else if decide (i ≤ j ∧ j ≤ m ∧ m ≤ sl_cap t)
              then run_s strict k
                     (mkSW w (<[p := Some (mkSlice (sl_back t) (sl_off t + i) (j - i) (m - i))]> (sw_hdr s))
                           (sw_arena s) (sw_spare s)) pe
              else SPan
          end
      | _, _, _ => SPan
      end
  | SNewMap k => let '(h, r) := alloc_map (w_heap w) in run_s strict (k r) (with_world s (set_heap w h)) pe
  | SMapRead r k => run_s strict (k (map_of (w_heap w) r)) s pe
  | SMapWrite r key v k =>
      match map_write (w_heap w) r key v with
      | Panic => SPan
      | Ok h => run_s strict k (with_world s (set_heap w h)) pe
      end
  | SMapDelete r key k => run_s strict k (with_world s (set_heap w (map_delete (w_heap w) r key))) pe
  | SInput k =>
      match w_env w with
      | [] => run_s strict (k 0) s pe
      | x :: env => run_s strict (k x) (with_world s (mkWorld (w_heap w) (w_events w) env (w_log w))) pe
      end
  | SPanic => SPan
  end.

(** *** The code that appends, with its slices *)
(** pkg/processor/append/process.go:27-40. *)
Definition append_s (c : append_config) : sprog (option goerr) :=
  let finish (p : ptr) : sprog (option goerr) :=
    SNew (mkString (ap_value c)) (λ s, SAppend (Some p) (Some s) (SRet None)) in
  SGet (ap_field c) (λ v,
    match v with
    | None => SNewArray [] (λ p, SPut (ap_field c) (Some p) (λ _ _, finish p))
    | Some p =>
        SLoad v (λ x,
          if N.eqb (v_type x) StringType then SNewArray [v] finish
          else if negb (N.eqb (v_type x) ArrayType)
               then SRet (Some (EMsg "value to append to is not array"))
               else finish p)
    end).

(** pkg/eventutil/event.go:29-54 Append. *)
Definition eventutil_append_s (key : string) (item : option ptr) : sprog (option goerr) :=
  match item with
  | None => SRet None
  | Some _ =>
      let finish (t : ptr) : sprog (option goerr) :=
        SLoad item (λ x,
          if N.eqb (v_type x) ArrayType
          then SAppendAll (Some t) item (SPut key (Some t) (λ _ err, SRet err))
          else SAppend (Some t) item (SPut key (Some t) (λ _ err, SRet err))) in
      SGet key (λ v,
        match v with
        | None => SNewArray [] finish
        | Some t =>
            SLoad v (λ y, if negb (N.eqb (v_type y) ArrayType) then SNewArray [v] finish
                          else finish t)
        end)
  end.

(** pkg/processor/lowercase/process.go:28-47 and uppercase/process.go:28-47. *)
Definition case_s (msg : string) (f : string → string) (c : case_config) : sprog (option goerr) :=
  SGet (cs_field c) (λ v,
    match v with
    | None => SRet (Some (EKeyMissing (cs_field c)))
    | Some _ =>
        SLoad v (λ x,
          if negb (N.eqb (v_type x) StringType) then SRet (Some (EMsg msg))
          else
            let out := f (v_str x) in
            let target := if String.eqb (cs_target c) "" then cs_field c else cs_target c in
            SNew (mkString out) (λ p, SPut target (Some p) (λ _ err, SRet err)))
    end).
(** pkg/processor/set/process.go:25-38. *)
Definition set_s (c : set_config) : sprog (option goerr) :=
  SLoad (Some (se_value c)) (λ x,
    if negb (N.eqb (v_type x) NullType)
    then SPut (se_target c) (Some (se_value c)) (λ _ err, SRet err)
    else if negb (String.eqb (se_copy_from c) "")
    then SGet (se_copy_from c) (λ v,
           match v with
           | None => SRet (Some (EKeyMissing (se_copy_from c)))
           | Some _ => SPut (se_target c) v (λ _ err, SRet err)
           end)
    else SPut (se_target c) None (λ _ err, SRet err)).
(** The Process methods of the built-in processors (Builtins.v, [cfg_prog]). *)
Definition cfg_sprog (lo up : string → string) (v : bcfg) : sprog (option goerr) :=
  match v with
  | CfLowercase field target _ => case_s "value to lowercase is not a string" lo (mkCase field target)
  | CfUppercase field target _ => case_s "value to uppercase is not a string" up (mkCase field target)
  | CfAppend _ field value _ => append_s (mkAppend field value)
  | CfSet from target p _ _ => set_s (mkSet from target p)
  | CfRemove _ _ | CfCommunityID _ => SRet None
  end.

(** *** Pipelines of such processors: Pipeline.v with slices *)
(** pkg/pipeline/processor.go:31-46. *)
Inductive spproc : Type :=
| SProc (id cond : string) (ignf ignm : bool) (onf : list spproc) (c : sprog (option goerr)).
Definition sinc (s : sworld) (id : string) (m : metric) : sworld :=
  mkSW (inc (sw_world s) id m) (sw_hdr s) (sw_arena s) (sw_spare s).
(** processor.go:66-70, pipeline.go:83-88, 91-96. *)
Section sloop.
  Context (process : spproc → sworld → pevent → sres (option goerr)).
  Fixpoint srun_list (l : list spproc) (s : sworld) (pe : pevent) (err : option goerr) : sres (option goerr) :=
    match l with
    | [] => SOk s pe err
    | p :: l' =>
        match process p s pe with
        | SOk s' pe' None => srun_list l' s' pe' None
        | SOk s' pe' (Some e) => SOk s' pe' (Some e)
        | SPan => SPan
        | Shared => Shared
        end
    end.
End sloop.
(** processor.go:48-86. *)
Fixpoint sp_process (strict : bool) (p : spproc) (s : sworld) (pe : pevent) {struct p} : sres (option goerr) :=
  match p with
  | SProc id _ ignf ignm onf c =>
      match run_s strict c (sinc s id MIn) pe with
      | SPan => SPan
      | Shared => Shared
      | SOk s1 pe1 None => SOk (sinc s1 id MOut) pe1 None
      | SOk s1 pe1 (Some err) =>
          if pe_dropped pe1 then SOk (sinc s1 id MDiscarded) pe1 None
          else if ignm && is_missing err then SOk (sinc s1 id MOut) pe1 None
          else
            match srun_list (sp_process strict) onf s1 pe1 (Some err) with
            | SPan => SPan
            | Shared => Shared
            | SOk s2 pe2 err2 =>
                if ignf && (match err2 with Some _ => true | None => false end)
                then SOk (sinc s2 id MOut) pe2 None
                else SOk (sinc s2 id MErrors) pe2 err2
            end
      end
  end.
(** pipeline.go:27-31, 81-104, 63-75. *)
Record spipeline : Type := mkSPipeline { sp_id : string; sp_processors : list spproc; sp_onf : list spproc }.
Definition Process_s (strict : bool) (pl : spipeline) (s : sworld) (evt : option nat)
  : sres (option nat * option goerr) :=
  let finish (r : sres (option goerr)) :=
    match r with
    | SPan => SPan
    | Shared => Shared
    | SOk s1 pe1 (Some err) => SOk s1 pe1 (None, Some err)
    | SOk s1 pe1 None => SOk s1 pe1 (if pe_dropped pe1 then None else pe_data pe1, None)
    end in
  match srun_list (sp_process strict) (sp_processors pl) s (mkPEvent evt false false) None with
  | SOk s1 pe1 (Some err) => finish (srun_list (sp_process strict) (sp_onf pl) s1 pe1 (Some err))
  | r => finish r
  end.

(** ** Specification: programs and states as EventHeap sees them *)
(** Every value with the elements its slice shows. *)
Definition fill (hdr : list (option slice)) (A : arena) (l : list Value) : list Value :=
  zip_with (λ v t, with_arr v (contents A t)) l hdr.
Definition view (s : sworld) : world :=
  set_heap (sw_world s)
    (mkHeap (fill (sw_hdr s) (sw_arena s) (hvals (w_heap (sw_world s)))) (hmaps (w_heap (sw_world s)))).

(** The same program on array values that simply hold their elements. *)
Fixpoint abs {A} (c : sprog A) : prog A :=
  match c with
  | SRet a => Ret a
  | SPut key v k => PPut key v (λ o e, abs (k o e))
  | STryPut key v k => PTryPut key v (λ o e, abs (k o e))
  | SGet key k => PGet key (λ v, abs (k v))
  | SDelete key k => PDelete key (λ v, abs (k v))
  | SCancel k => PCancel (abs k)
  | SDrop k => PDrop (abs k)
  | SNew v k => PNew (with_arr v None) (λ p, abs (k p))
  | SNewArray l k => PNew (mkArray l) (λ p, abs (k p))
  | SLoad p k => PLoad p (λ v, abs (k v))
  | SStore p v k => PLoad p (λ a, PStore p (with_arr v (v_arr a)) (abs k))
  | SAppend p x k => PLoad p (λ a, PStore p (with_arr a (Some (arr_of a ++ [x]))) (abs k))
  | SAppendAll p q k =>
      PLoad q (λ b, match arr_of b with
                    | [] => abs k
                    | l => PLoad p (λ a, PStore p (with_arr a (Some (arr_of a ++ l))) (abs k))
                    end)
  | SSlice p q i j m k =>
      PLoad p (λ a, PLoad q (λ b,
        match v_arr b with
        | None => if decide (i = 0 ∧ j = 0 ∧ m = 0) then PStore p (with_arr a None) (abs k) else PPanic
        | Some l => PStore p (with_arr a (Some (take (j - i) (drop i l)))) (abs k)
        end))
  | SNewMap k => PNewMap (λ r, abs (k r))
  | SMapRead r k => PMapRead r (λ m, abs (k m))
  | SMapWrite r key v k => PMapWrite r key v (abs k)
  | SMapDelete r key k => PMapDelete r key (abs k)
  | SInput k => PInput (λ n, abs (k n))
  | SPanic => PPanic
  end.

Fixpoint abs_proc (p : spproc) : pproc :=
  match p with SProc id cond ignf ignm onf c => PProc id cond ignf ignm (map abs_proc onf) (abs c) end.
Definition abs_pipe (pl : spipeline) : pipeline :=
  mkPipeline (sp_id pl) (map abs_proc (sp_processors pl)) (map abs_proc (sp_onf pl)).

(** The program contains no slicing of existing slices. *)
Fixpoint no_slicing {A} (c : sprog A) : Prop :=
  match c with
  | SRet _ | SPanic => True
  | SPut _ _ k | STryPut _ _ k => ∀ o e, no_slicing (k o e)
  | SGet _ k | SDelete _ k => ∀ v, no_slicing (k v)
  | SCancel k | SDrop k | SStore _ _ k | SAppend _ _ k | SAppendAll _ _ k
  | SMapWrite _ _ _ k | SMapDelete _ _ k => no_slicing k
  | SNew _ k | SNewArray _ k | SNewMap k => ∀ p, no_slicing (k p)
  | SLoad _ k => ∀ v, no_slicing (k v)
  | SMapRead _ k => ∀ m, no_slicing (k m)
  | SInput k => ∀ n, no_slicing (k n)
  | SSlice _ _ _ _ _ _ => False
  end.

(** The same configured processors, once with slices and once without: each runs a
    built-in processor. *)
Inductive same_proc (lo up : string → string) : spproc → pproc → Prop :=
| same_proc_intro id cond ignf ignm sonf onf v : Forall2 (same_proc lo up) sonf onf →
    same_proc lo up (SProc id cond ignf ignm sonf (cfg_sprog lo up v))
                    (PProc id cond ignf ignm onf (cfg_prog lo up v)).
Definition same_pipe (lo up : string → string) (sp : spipeline) (pl : pipeline) : Prop :=
  sp_id sp = pl_id pl ∧ Forall2 (same_proc lo up) (sp_processors sp) (pl_processors pl) ∧
  Forall2 (same_proc lo up) (sp_onf sp) (pl_onf pl).

(** Positions: slot [i] of backing array [b] is one of the elements of [s], or is
    anywhere in its capacity, or is spare. *)
Definition holds_slot (s : slice) (b i : nat) : Prop :=
  sl_back s = b ∧ sl_off s ≤ i < sl_off s + sl_cap s.
Definition spare_slot (s : slice) (b i : nat) : Prop :=
  sl_back s = b ∧ sl_off s + sl_len s ≤ i < sl_off s + sl_cap s.
(** A slice as Go keeps it. *)
Definition slice_ok (A : arena) (s : slice) : Prop :=
  sl_len s ≤ sl_cap s ∧ ∃ l, A !! sl_back s = Some l ∧ sl_off s + sl_cap s ≤ length l.
(** No value's spare capacity is within the reach of another value. *)
Record unshared (s : sworld) : Prop := {
  us_len : length (sw_hdr s) = length (hvals (w_heap (sw_world s)));
  us_plain : Forall (λ v, v_arr v = None) (hvals (w_heap (sw_world s)));
  us_ok : ∀ p t, sw_hdr s !! p = Some (Some t) → slice_ok (sw_arena s) t;
  us_sole : ∀ p q t u b i, p ≠ q → sw_hdr s !! p = Some (Some t) → sw_hdr s !! q = Some (Some u) →
    spare_slot t b i → ¬ holds_slot u b i
}.

(** The world [w] with a backing array of its own, and [n p] spare slots, for every
    value [p]. *)
Definition boxed (w : world) (n : nat → nat) (spare : list nat) : sworld :=
  mkSW (set_heap w (mkHeap (map (λ v, with_arr v None) (hvals (w_heap w))) (hmaps (w_heap w))))
    (imap (λ p v, match v_arr v with
                  | None => None
                  | Some l => Some (mkSlice p 0 (length l) (length l + n p))
                  end) (hvals (w_heap w)))
    (imap (λ p v, arr_of v ++ replicate (n p) None) (hvals (w_heap w)))
    spare.
