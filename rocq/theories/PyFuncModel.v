(** * Python functions in transform graphs

    Models /repo/tensorflow_transform/py_func/pyfunc_helper.py and what
    saved_transform_io.py, saved_transform_io_v2.py and the steps of AnalyzeDataset do with it. *)
From Coq Require Import String List Arith Bool.
Import ListNotations.
Local Open Scope list_scope.

Section PyFunc.
(** Python functions. Pickling them (pyfunc_helper.py:48-66, dill) is taken to give the same function back. *)
Context {func : Type}.

(** Tokens are the strings pyfunc_0, pyfunc_1, … of TensorFlow, given out by a counter of the process. *)
Definition token := nat.

(** The registry of TensorFlow of a process (tensorflow/python/ops/script_ops.py, FuncRegistry). *)
Record process := Process { counter : nat; registry : token -> option func }.
Definition new_process : process := Process 0 (fun _ => None).
Definition tf_insert (p : process) (f : func) : process * token :=
  (Process (S (counter p)) (fun t => if t =? counter p then Some f else registry p t), counter p).

(** Nodes of a graph. [made_for] is the function the node was made for: no code reads it. *)
Record node := Node { n_name : string; n_op : string; n_token : token; made_for : option func }.
Definition with_token (n : node) (t : token) : node := Node (n_name n) (n_op n) t (made_for n).
(** A member of the collection "pyfuncs" (pyfunc_helper.py:36-66, _PyFuncDef). [e_home] is the process, by
    number, whose registry gave the token: no code reads it. *)
Record entry := Entry { e_token : token; e_func : func; e_home : nat }.

(** A graph, the number of its process, its nodes, those in the functions of its library (bodies of
    tf.functions and of control flow), and its collection. *)
Record graph := Graph { g_process : nat; g_nodes : list node; g_library : list node; g_pyfuncs : list entry }.
(** A MetaGraphDef. *)
Record meta_graph := Meta { m_nodes : list node; m_library : list node; m_pyfuncs : list entry }.

(** pyfunc_helper.py:83-100 [insert_pyfunc], for functions that return a tensor. *)
Definition insert_pyfunc (p : process) (g : graph) (f : func) (stateful : bool) (name : string) : process * graph * token :=
  let (p', t) := tf_insert p f in
  (p', Graph (g_process g)
             (g_nodes g ++ [Node name (if stateful then "PyFunc" else "PyFuncStateless") t (Some f)])
             (g_library g) (g_pyfuncs g ++ [Entry t f (g_process g)]), t).

(** pyfunc_helper.py:140-157: the loop over the collection. The dict is a list, latest first. *)
Fixpoint reinsert (p : process) (g : graph) (defs : list entry) (new_tokens_by_old_token : list (token * token))
    : process * graph * list (token * token) :=
  match defs with
  | [] => (p, g, new_tokens_by_old_token)
  | d :: defs' =>
      let '(p', g', t) := insert_pyfunc p g (e_func d) false "temp" in
      reinsert p' g' defs' ((e_token d, t) :: new_tokens_by_old_token)
  end.
Definition get (d : list (token * token)) (t : token) : option token :=
  option_map snd (find (fun kv => fst kv =? t) d).

(** pyfunc_helper.py:167-176: the loop over the nodes; None is the ValueError. *)
Fixpoint swap_tokens (new_tokens_by_old_token : list (token * token)) (expected : list token) (nodes : list node) : option (list node) :=
  match nodes with
  | [] => Some []
  | n :: nodes' =>
      let swapped :=
        if String.eqb (n_op n) "PyFunc" || String.eqb (n_op n) "PyFuncStateless" then
          match get new_tokens_by_old_token (n_token n) with
          | Some t => Some (with_token n t)
          | None => if existsb (Nat.eqb (n_token n)) expected then Some n else None
          end
        else Some n in
      match swapped, swap_tokens new_tokens_by_old_token expected nodes' with
      | Some n', Some rest => Some (n' :: rest)
      | _, _ => None
      end
  end.

(** What a call may do. *)
Inductive result (A : Type) := Returned (a : A) | Raised.
Arguments Returned {A}. Arguments Raised {A}.

(** pyfunc_helper.py:103-177 [register_pyfuncs_from_saved_transform]: the process and the graph afterwards, and
    the nodes of the GraphDef returned or modified (None: none of either). An empty collection is not saved. *)
Definition register_pyfuncs_from_saved_transform (p : process) (g : graph) (m : meta_graph) (loaded_in_tf2 : bool)
    : result (process * graph * option (list node)) :=
  match m_pyfuncs m with
  | [] => Returned (p, g, None)
  | defs =>
      let '(p', g', new_tokens_by_old_token) := reinsert p g defs [] in
      let '(graph_def, expected) :=
        if loaded_in_tf2 then (g_nodes g', map fst new_tokens_by_old_token ++ map snd new_tokens_by_old_token)
        else (m_nodes m, map fst new_tokens_by_old_token) in
      match swap_tokens new_tokens_by_old_token expected graph_def with
      | Some nodes => Returned (p', g', Some nodes)
      | None => Raised
      end
  end.

(** saved_transform_io.py:271-304 (_partially_apply_saved_transform_impl): register, then import_meta_graph, which
    adds the nodes, the library and the members of the collections to the graph. The scope added to the names is
    left out. *)
Definition partially_apply_saved_transform (p : process) (g : graph) (m : meta_graph) : result (process * graph) :=
  match register_pyfuncs_from_saved_transform p g m false with
  | Raised => Raised
  | Returned (p', g', nodes) =>
      Returned (p', Graph (g_process g') (g_nodes g' ++ match nodes with Some ns => ns | None => m_nodes m end)
                          (g_library g' ++ m_library m) (g_pyfuncs g' ++ m_pyfuncs m))
  end.

(** saved_transform_io_v2.py:47-74 (_restore_from_v1_saved_model): tf.saved_model.load gives a graph with the nodes
    of the saved one; the function returned is made from the GraphDef, its first nodes are those of the model. *)
Definition restore_from_v1_saved_model (number : nat) (p : process) (m : meta_graph) : result (process * list node) :=
  let restored := Graph number (m_nodes m) (m_library m) [] in
  match register_pyfuncs_from_saved_transform p restored m true with
  | Raised => Raised
  | Returned (p', g', nodes) => Returned (p', match nodes with Some ns => firstn (length (m_nodes m)) ns | None => m_nodes m end)
  end.

(** saved_transform_io.py:462-487 (write_saved_transform_from_session) *)
Definition export (g : graph) : meta_graph := Meta (g_nodes g) (g_library g) (g_pyfuncs g).

(** ** Histories of processes, graphs and saved models *)
Record world := World { w_processes : list process; w_graphs : list graph; w_models : list meta_graph; w_restored : list (nat * list node) }.
Definition nothing : world := World [] [] [] [].

Inductive action :=
| New_process
| Register_elsewhere (process : nat) (f : func)  (* other users of the registry of TensorFlow *)
| New_graph (process : nat)
| Apply_pyfunc (graph : nat) (f : func) (stateful : bool) (name : string)  (* py_func/api.py:21-66 *)
| Add_operation (graph : nat) (name op : string)
| Apply_in_function (graph : nat) (f : func) (name : string)  (* in the body of a tf.function *)
| Save (graph : nat)
| Load (graph model : nat)
| Load_v2 (process model : nat).

Fixpoint set_nth {A} (i : nat) (a : A) (l : list A) : list A :=
  match l, i with
  | [], _ => []
  | _ :: l', 0 => a :: l'
  | b :: l', S i' => b :: set_nth i' a l'
  end.

(** An action on things that do not exist does nothing. *)
Definition perform (w : world) (a : action) : result world :=
  match a with
  | New_process => Returned (World (w_processes w ++ [new_process]) (w_graphs w) (w_models w) (w_restored w))
  | Register_elsewhere i f =>
      match nth_error (w_processes w) i with
      | Some p => Returned (World (set_nth i (fst (tf_insert p f)) (w_processes w)) (w_graphs w) (w_models w) (w_restored w))
      | None => Returned w
      end
  | New_graph i =>
      match nth_error (w_processes w) i with
      | Some _ => Returned (World (w_processes w) (w_graphs w ++ [Graph i [] [] []]) (w_models w) (w_restored w))
      | None => Returned w
      end
  | Apply_pyfunc j f stateful name =>
      match nth_error (w_graphs w) j with
      | Some g =>
          match nth_error (w_processes w) (g_process g) with
          | Some p => let '(p', g', _) := insert_pyfunc p g f stateful name in
                      Returned (World (set_nth (g_process g) p' (w_processes w)) (set_nth j g' (w_graphs w)) (w_models w) (w_restored w))
          | None => Returned w
          end
      | None => Returned w
      end
  | Add_operation j name op =>
      match nth_error (w_graphs w) j with
      | Some g =>
          if String.eqb op "PyFunc" || String.eqb op "PyFuncStateless" then Returned w
          else Returned (World (w_processes w) (set_nth j (Graph (g_process g) (g_nodes g ++ [Node name op 0 None]) (g_library g) (g_pyfuncs g)) (w_graphs w))
                               (w_models w) (w_restored w))
      | None => Returned w
      end
  | Apply_in_function j f name =>
      match nth_error (w_graphs w) j with
      | Some g =>
          match nth_error (w_processes w) (g_process g) with
          | Some p => let (p', t) := tf_insert p f in
                      let g' := Graph (g_process g) (g_nodes g) (g_library g ++ [Node name "PyFunc" t (Some f)]) (g_pyfuncs g ++ [Entry t f (g_process g)]) in
                      Returned (World (set_nth (g_process g) p' (w_processes w)) (set_nth j g' (w_graphs w)) (w_models w) (w_restored w))
          | None => Returned w
          end
      | None => Returned w
      end
  | Save j =>
      match nth_error (w_graphs w) j with
      | Some g => Returned (World (w_processes w) (w_graphs w) (w_models w ++ [export g]) (w_restored w))
      | None => Returned w
      end
  | Load j k =>
      match nth_error (w_graphs w) j, nth_error (w_models w) k with
      | Some g, Some m =>
          match nth_error (w_processes w) (g_process g) with
          | Some p =>
              match partially_apply_saved_transform p g m with
              | Raised => Raised
              | Returned (p', g') => Returned (World (set_nth (g_process g) p' (w_processes w)) (set_nth j g' (w_graphs w)) (w_models w) (w_restored w))
              end
          | None => Returned w
          end
      | _, _ => Returned w
      end
  | Load_v2 i k =>
      match nth_error (w_processes w) i, nth_error (w_models w) k with
      | Some p, Some m =>
          match restore_from_v1_saved_model i p m with
          | Raised => Raised
          | Returned (p', nodes) => Returned (World (set_nth i p' (w_processes w)) (w_graphs w) (w_models w) (w_restored w ++ [(i, nodes)]))
          end
      | _, _ => Returned w
      end
  end.
Fixpoint perform_all (w : world) (l : list action) : result world :=
  match l with
  | [] => Returned w
  | a :: l' => match perform w a with Returned w' => perform_all w' l' | Raised => Raised end
  end.
End PyFunc.
Arguments Returned {A}. Arguments Raised {A}.
