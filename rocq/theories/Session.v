(** * Programs that work on any number of events.

    The model of what a program can do with the library to several events: Put, TryPut,
    Get, Delete, eventutil.Append and the Process of pipelines, in any order.  All the
    null values that eventutil.ReflectValue and protobuf.ToLogEvent put into events are
    one and the same variable, event.NullValue, so the events are not really apart. *)
From Verif Require Export ShareFacts.
From Verif Require Import PipeSem.
From Coq Require Import Lia.

(** ** The model *)
(** eventutil/reflect.go:48-152 and protobuf.go:142-173: building a value; [null] is the
    address of event.NullValue (value.go:26), used by reflect.go:93-94, 111-112 and
    protobuf.go:144-145.  Simplified: the value to build is given as the tree that comes
    out (Reflect.v and Protobuf.v say which), built in the order of the tree. *)
Fixpoint build (null : ptr) (h : heap) (t : tree) : heap * option ptr :=
  match t with
  | TNil => (h, None)
  | TNull => (h, Some null)
  | TBool b => alloc_some h (mkBool b)
  | TInt z => alloc_some h (mkInteger z)
  | TUint z => alloc_some h (mkUnsignedInteger z)
  | TFloat z => alloc_some h (mkFloat z)
  | TStr s => alloc_some h (mkString s)
  | TTime z => alloc_some h (mkTimestamp z)
  | TNilArr => alloc_some h (mkArray [])
  | TArr l =>
      let '(h1, ops) :=
        (fix go (h : heap) (l : list tree) : heap * list (option ptr) :=
           match l with
           | [] => (h, [])
           | t :: l' => let '(h1, op) := build null h t in let '(h2, ops) := go h1 l' in (h2, op :: ops)
           end) h l in
      alloc_some h1 (mkValue 0 0 0 0 "" (Some ops) None false ArrayType)
  | TNilObj => alloc_some h (mkObject None)
  | TObj m =>
      let '(h1, gm) :=
        (fix go (h : heap) (m : gomap tree) : heap * gomap (option ptr) :=
           match m with
           | [] => (h, [])
           | (k, t) :: m' => let '(h1, op) := build null h t in let '(h2, gm) := go h1 m' in (h2, (k, op) :: gm)
           end) h m in
      let '(h2, r) := alloc_map_with h1 gm in
      alloc_some h2 (mkObject (Some r))
  end.

(** A call on one event; [t]: a value built for it.  [DoLink]: evt.Put(to, evt.Get(from));
    [DoMove]: evt.Put(to, evt.Delete(from)); [DoProcess n]: the n-th pipeline. *)
Inductive call : Type :=
| DoPut (key : string) (t : tree)
| DoTryPut (key : string) (t : tree)
| DoGet (key : string)
| DoDelete (key : string)
| DoLink (from to : string)
| DoMove (from to : string)
| DoAppend (key : string) (t : tree)
| DoProcess (n : nat).
(** What a call returns, and the heap at that moment: the value it returns can be looked
    at then. *)
Record answer : Type := mkAns { a_heap : heap; a_val : option ptr; a_err : option goerr }.

Definition end_put (w : world) (i : nat) (o : Outcome put_result) : Outcome (world * answer) :=
  match o with
  | Panic => Panic
  | Ok pr => Ok (mkWorld (put_heap pr) (<[i := put_event pr]> (w_events w)) (w_env w) (w_log w),
                 mkAns (put_heap pr) (put_old pr) (put_err pr))
  end.
(** event.go:49-58, 97-99, 123-125; eventutil/event.go:29-54; pipeline.go:63-75. *)
Definition do_call (null : ptr) (pls : list pipeline) (w : world) (i : nat) (c : call) : Outcome (world * answer) :=
  match w_events w !! i with
  | None => Panic
  | Some e =>
      match c with
      | DoPut key t => let '(h, op) := build null (w_heap w) t in end_put w i (Put h e key op)
      | DoTryPut key t => let '(h, op) := build null (w_heap w) t in end_put w i (TryPut h e key op)
      | DoGet key =>
          match Get (w_heap w) e key with
          | Panic => Panic
          | Ok (h, op) => Ok (set_heap w h, mkAns h op None)
          end
      | DoDelete key =>
          match EvDelete (w_heap w) e key with
          | Panic => Panic
          | Ok (h, op) => Ok (set_heap w h, mkAns h op None)
          end
      | DoLink from to =>
          match Get (w_heap w) e from with
          | Panic => Panic
          | Ok (h, op) => end_put w i (Put h e to op)
          end
      | DoMove from to =>
          match EvDelete (w_heap w) e from with
          | Panic => Panic
          | Ok (h, op) => end_put w i (Put h e to op)
          end
      | DoAppend key t =>
          let '(h, op) := build null (w_heap w) t in
          match run_prog (eventutil_append key op) (set_heap w h) (mkPEvent (Some i) false false) with
          | Panic => Panic
          | Ok (w', _, err) => Ok (w', mkAns (w_heap w') None err)
          end
      | DoProcess n =>
          match pls !! n with
          | None => Panic
          | Some pl =>
              match Process pl w (Some i) with
              | Panic => Panic
              | Ok (w', _, err) => Ok (w', mkAns (w_heap w') None err)
              end
          end
      end
  end.
(** A program: calls on events, one after the other; the answers, each with the event. *)
Fixpoint do_calls (null : ptr) (pls : list pipeline) (w : world) (cs : list (nat * call)) : Outcome (world * list (nat * answer)) :=
  match cs with
  | [] => Ok (w, [])
  | (i, c) :: cs' =>
      match do_call null pls w i c with
      | Panic => Panic
      | Ok (w1, a) =>
          match do_calls null pls w1 cs' with
          | Panic => Panic
          | Ok (w2, l) => Ok (w2, (i, a) :: l)
          end
      end
  end.

(** ** Specification *)
(** One event by itself, as a graph (ShareSpec.v).  A new value: *)
Definition gplant (t : tree) (G : graph) : graph * item :=
  (mkGraph (g_boxes G ++ (plant_item t (length (g_boxes G))).2) (g_root G), (plant_item t (length (g_boxes G))).1).
(** Storing an item; the old one is returned. *)
Definition gput (overwrite : bool) (key : string) (x : item) (G : graph) : verdict (graph * (option item * option goerr)) :=
  if decide (spec_path key = []) then Gives (G, (None, Some err_empty))
  else match x with IPlain TNil => Gives (G, (None, None)) | _ =>
    vbind (gread key G) (λ old,
      match old, overwrite with
      | Some _, false => Gives (G, (old, Some (err_exists (spec_path key))))
      | _, _ => vbind (gstore key x G) (λ '(G', err), Gives (G', (match err with None => old | Some _ => None end, err)))
      end)
  end.
(** Deleting: the first name of the path goes. *)
Definition gdelete (key : string) (G : graph) : verdict (graph * option item) :=
  match spec_path key, g_root G with
  | k :: _, Some n =>
      vbind (gread key G) (λ o,
        match o with
        | None => Gives (G, None)
        | Some x => Gives (mkGraph (<[n := BxObj (mdel k (entries (g_boxes G) n))]> (g_boxes G)) (g_root G), Some x)
        end)
  | _, _ => Gives (G, None)
  end.
(** Appending an item to what is there: to an array its elements, or the item itself. *)
Definition gextend (n : nat) (x : item) (G : graph) : graph :=
  let added := match x with IArr m => elems (g_boxes G) m | _ => [x] end in
  match added with
  | [] => G
  | _ => mkGraph (<[n := BxArr (Some (elems (g_boxes G) n ++ added))]> (g_boxes G)) (g_root G)
  end.
Definition gappend (key : string) (x : item) (G : graph) : verdict (graph * option goerr) :=
  match x with IPlain TNil => Gives (G, None) | _ =>
    vbind (gread key G) (λ o,
      let '(G1, n) :=
        match o with
        | None => grow (BxArr None) G
        | Some (IArr n) => (G, n)
        | Some y => grow (BxArr (Some [y])) G
        end in
      gstore key (IArr n) (gextend n x G1))
  end.
Definition gcall (bs : list bpipe) (c : call) (G : graph) : verdict (graph * (option item * option goerr)) :=
  match c with
  | DoPut key t => let '(G, x) := gplant t G in gput true key x G
  | DoTryPut key t => let '(G, x) := gplant t G in gput false key x G
  | DoGet key => vbind (gread key G) (λ o, Gives (G, (o, None)))
  | DoDelete key => vbind (gdelete key G) (λ '(G, o), Gives (G, (o, None)))
  | DoLink from to => vbind (gread from G) (λ o, gput true to (default (IPlain TNil) o) G)
  | DoMove from to => vbind (gdelete from G) (λ '(G, o), gput true to (default (IPlain TNil) o) G)
  | DoAppend key t => let '(G, x) := gplant t G in vbind (gappend key x G) (λ '(G, err), Gives (G, (None, err)))
  | DoProcess n =>
      match bs !! n with
      | None => Crashes
      | Some b => vbind (gsem_pipe b G) (λ '(G, err, _), Gives (G, (None, err)))
      end
  end.
(** Several events: a call concerns the graph of its event only.  The answers come with the
    graph of the event at that moment. *)
Fixpoint gcalls (bs : list bpipe) (Gs : list graph) (cs : list (nat * call)) : verdict (list graph * list (nat * (graph * (option item * option goerr)))) :=
  match cs with
  | [] => Gives (Gs, [])
  | (i, c) :: cs' =>
      match Gs !! i with
      | None => Crashes
      | Some G => vbind (gcall bs c G) (λ '(G', a), vbind (gcalls bs (<[i := G']> Gs) cs') (λ '(Gs', l), Gives (Gs', (i, (G', a)) :: l)))
      end
  end.
