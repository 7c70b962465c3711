# Formal model of GiMPy in Rocq (Coq 8.16.1)

## 1. Layers

| layer | files (`rocq/theories/`) | content |
|---|---|---|
| Python substrate | `Py.v` | insertion-ordered dicts, lists, values, exceptions, state+exception monad `M`, fuelled loops, total-correctness rules (`ok`) |
| Model | `M_*.v` | one Gallina function per GiMPy method, each citing file and lines |
| Specification | `Spec.v`, `S_*.v` | walks, reachability, connectivity, trees, flows, costs: defined on relations, no reference to the model's helpers |
| Proofs | `P_*.v` | invariants, refinements, lemmas |
| Property theorems | `C_*.v` | the theorems named in `MANIFEST.json`, non-vacuity `Example`s and `Print Assumptions` |

A method of `Graph` is a function `graph -> graph * res A`: it returns the new object state *and* either a value or an
exception, so a call that raises half-way leaves its partial mutations visible, as in Python.
`while` loops are `loop fuel body`; running out of fuel is the distinct exception `OutOfFuel`, so "returns `Ok`" theorems are
termination theorems, and non-termination is stated as "`OutOfFuel` for every fuel".

## 2. What is modelled, what is not

Every function of `graph.py` and `tree.py`, and the quoting functions of `global_constants.py`, except those listed at the
end of this section:

| source | model |
|---|---|
| `graph.py` `Node`, `Graph.__init__`, core graph and attribute methods (116-596), `create_cluster` | `M_Graph.v`, with object identity `M_Heap.v` |
| `edge_to_string`, `to_string`, `Node.to_string`, `create_cluster`'s effect on the text, `quote_if_necessary`, `needs_quotes` | `M_Dot.v` |
| `search`, `bfs`, `process_*`, `label_components`, `get_diameter` | `M_Search.v` |
| `dfs`, `hamiltonian`, `acyclic_shortest_path`, `tarjan`, `strong_connect`, `label_strong_component` | `M_Dfs.v` |
| `minimum_spanning_tree_prim`; `minimum_spanning_tree_kruskal`, `DisjointSet` | `M_Prim.v`, `M_Shared.v`; `M_Kruskal.v` |
| `max_flow`; `max_flow_preflowpush`, `relabel`, `show_flow`, `process_edge_flow` | `M_Flow.v`; `M_Preflow.v` |
| `floyd_warshall*`, `get_negative_cycle`; `fifo_label_correcting`, `label_correcting_*` | `M_Floyd.v`; `M_LabelCorr.v` |
| `create_residual_graph`, `cycle_canceling`, `find_feasible_flow`, `find_cycle_capacity`, `augment_cycle` | `M_MinCost.v` |
| `simplex_optimal`, `simplex_select_entering_arc`; `network_simplex`, the other `simplex_*` methods, `min_cost_flow` | `M_Simplex.v`; `M_NetSimplex.v` |
| `get_layout`, `set_layout`, `set_display_mode`, `write`, `create`, `display` | `M_Display.v` |
| `random`; `page_rank`; `get_degrees`, `get_in_degrees`, `get_out_degrees` | `M_Random.v`; `M_PageRank.v`; `M_Metrics.v` |
| `Graph.__repr__`, `Node.__repr__`, `get_node`, `print_flow` | `M_Repr.v` |
| `tree.py` | `M_Tree.v` |
| `examples/BB.py` | `M_BB.v` |
| `examples/simplex_test.py` | `M_SimplexTest.v` |

Simplifications (repeated in the comments of the definitions concerned):

* Node names are Python ints or strs (`name`); attribute values are `None`, bools, ints, strs (`val`). Floats are not values of the
  model: `page_rank` is over exact rationals; in Euclidean `random` coordinates are opaque values and the distance a parameter;
  the LP values of `BB.py` and `simplex_test.py` are rationals.
* In the models of the algorithms `display()` is a no-op. `display`, `create`, `write` themselves are modelled in `M_Display.v`,
  with Graphviz, PIL, matplotlib, xdot, dot2tex, TeX, `mkstemp` and `open` as functions of a record `env`.
* `coinor.blimpy` (Stack, Queue, PriorityQueue) is not in `/repo`. It is a *parameter* of the model: a record `frontier` of
  operations; theorems are proved for every frontier satisfying stated laws (bag laws for DFS, FIFO laws for BFS, min-first laws for
  Dijkstra/Prim), and concrete stack/queue/heap instances are proved to satisfy the laws (non-vacuity). These laws are part of
  the trusted base.
* In `Tree.traverse`/`BinaryTree.traverse` blimpy's Stack and Queue are lists (push at the head, enqueue at the tail). The default
  argument `q=Stack()` is shared between calls in Python; in `M_Tree.v` it is fresh. `M_Shared.v` models the sharing
  (also for `minimum_spanning_tree_prim`), and C67 says when the two agree.
* The linear programming solvers behind PuLP are parameters: functions from problems to rational assignments with a stated law
  (`exact` for `BB.py`, `solves` for `simplex_test.py`).
* Python's `random` is an arbitrary stream (record `oracle`); theorems hold for every stream.
* `is` on the graph-type strings is string equality (CPython interns the literals).
* `M_Graph.v` holds neighbour lists and Node objects by value. `M_Heap.v` models the same core API with references to objects, and
  C68 proves that the two agree and what a caller sees through the objects it got. Other calls (algorithms) are modelled on
  `M_Graph.v` only; attribute values are immutable there (no dictionaries or lists as values).
* Python recursion depth and memory limits are not modelled. Text printed to the terminal is modelled only where a property
  speaks about it (`print_nodes`, `printexp`, `print_flow`).

Not modelled: `handle_close`, the scripts in `examples/` other than the two above (they build one fixed graph each), `test/`,
`setup.py`.

## 3. Plan per property

See `properties.jsonl` for the statements.

| id | model | proof |
|---|---|---|
| C01, C02 | `M_Graph.v` | invariant `wf` by induction over operation histories; theorem phrased with the API observers only |
| C03-C06 | same | equational laws + frame |
| C07 | same + degrees | double counting by list induction over the adjacency/edge correspondence |
| C08, C09 | `to_string` as list of statements then concatenated | list induction; C09: failure for every undirected graph with an edge inside a cluster |
| C10 | regexes as hand-written matchers, DOT lexer as spec | string induction; refutations by computation |
| C11-C15, C18, C19 | `search` with frontier parameter | refinement to a small abstract machine, invariants, measure for termination |
| C16, C17 | same machine with priorities | Dijkstra invariant; Prim by cut exchange |
| C20-C22 | fuelled recursive `dfs` | white-path style invariant, induction on fuel |
| C23 | fuelled recursive `strong_connect` | stack/lowlink invariant |
| C24, C25 | `DisjointSet` over `Graph` | forest invariant; matroid exchange for optimality |
| C26-C28 | `max_flow` | flow invariant + residual cut; termination by value bound |
| C29 | `M_Preflow.v`: `max_flow_preflowpush`, the three selection rules | preflow invariant + valid labelling (`P_PreflowAbs.v`), measure for the pushes and relabels, no cut has room at the end; divergence examples |
| C30-C32 | `floyd_warshall` & co | path-set invariant of the k-loop |
| C33 | label correcting with typed comparison | direct |
| C34-C37 | residual graph, cycle augment, feasible flow, cycle canceling | flow algebra; optimality by potentials from C30 |
| C38, C39 | simplex optimality test and entering arc | complementary slackness; list induction |
| C40 | `get_diameter` over `search` | from C13 |
| C41 | `page_rank` over Q | list induction; potential argument on the total residual (`P_PageConv.v`) |
| C42 | `create_cluster` with mutable default argument as state | direct |
| C43-C49 | `M_Tree.v` | tree invariant; refinement to inductive trees |
| C50 | `hamiltonian` | direct |
| C51 | `random` over an oracle stream | invariant of loops; the default arguments (`C_RandomDef.v`) |
| C53, C54 | `search` | `P_SearchRaise.v`: the machine of C16 with missing costs filled in agrees up to the first missing cost; `P_SearchDepth.v`: invariant for one level; dichotomy return or exception |
| C55 | `fifo_label_correcting` with Python 2 comparisons | invariant over labels and predecessors (`P_LabelAbs.v`), termination measure, loop rule |
| C56 | `M_NetSimplex.v`: `network_simplex` and all `simplex_*` methods | spanning tree invariant (`P_NetTree.v`), search, potentials, pivots as refinement to tree solutions; optimality by C38; rule `tpk B` (no exception but `OutOfFuel`, and that only if `B`), so that every inner loop gets an explicit fuel bound; termination on nondegenerate problems (`P_NetTerm.v`): tree arcs are strictly between their bounds, so every pivot lowers the cost |
| C57 | `min_cost_flow` | case analysis, C37 and C56 |
| C58 | `max_flow` | the invariant `FI` of C26 also carries the labels; the search invariant carries the node colors (`painted`), the explored set is the cut |
| C59 | `max_flow_preflowpush`, `show_flow` | `PS` = the state predicate of C29 plus "labels and colors are up to date", kept by every iteration |
| C60 | `display`, `set_layout`, `set_display_mode` | graph plus files as state, the packages and programs as a record `env`; a predicate on graphs that every step keeps, also on exceptions (`dkeep`); partial-correctness rules for the calls that return |
| C61 | `create`, `write`, `display` | same model; `kept`: files present at the start are unchanged outside a given set of paths; exact files of calls that return |
| C62 | `M_BB.v`: `examples/BB.py` with the LP solver and the queue as parameters | `S_BB.v`: 0-1 programs, `subproblem` read from the drawn tree, `verdict`, `visits`; loop invariant `run`, measure = sum of 2^(n+1-depth)-1 over the queue; the key survives every step, by a frame invariant without hypotheses (`C_BBKey.v`) |
| C63 | same | invariant `ord`: priorities of queued items, order of the solved nodes |
| C52 | `minimum_spanning_tree_prim` | as C17 |
| C64 | `M_SimplexTest.v`: `examples/simplex_test.py`, the solver a parameter | `P_LP.v`: the program built is the flow problem over the rationals; C56's proof repeated for the script's own `network_simplex` (`P_MGraph.v`); induction over the instances |
| C65 | `generate_graph` over an oracle stream | invariants of the loops (`P_Generate.v`), specification `S_Generate.v` |
| C66 | `M_Repr.v`: `__repr__`, `get_node`, `print_flow` | unique decoding of the text by induction (`P_Repr.v`) |
| C67 | `M_Shared.v`: the default queues as part of the state | simulation with `M_Prim.v`/`M_Tree.v`, loop invariants (`P_Shared.v`, `P_SharedTree.v`) |
| C68 | `M_Heap.v`: the core API on a heap of list and Node objects | refinement to `M_Graph.v` under an ownership invariant; loop invariant for iteration over a live list (`P_Heap.v`, `P_HeapLoop.v`) |
| C69 | `search` on calls outside its preconditions | the reset as a loop invariant, then the first failing step; leftovers: loop invariant "the item is in q and not green" (`P_SearchEdge.v`) |
| C70 | sessions of algorithm calls (`S_Session.v`: one constructor per method, any arguments, the state after a return or an exception); sessions with the minimum cost methods among the calls (`C_SessionMin.v`); agreement of the methods for one problem | one frame invariant per method (`P_Session.v`), the problem data of the end of a session in terms of the start (`P_SessionUse.v`), then the optimality theorems of C16, C17, C24, C26, C27, C29, C30, C37, C55, C56 |
| C71 | `simplex_search` | loop invariant: the parents of the stacked nodes lie on the path from the source to the node visited last, deeper ones first (`P_NetSearch.v`); preorder from that by induction on the order (`P_SimplexSearch.v`) |
| C72 | `get_simplex_solution_graph`, `simplex_find_tree`, `simplex_compute_potentials`, `simplex_identify_cycle`, `simplex_determine_leaving_arc`, `simplex_remove_arc` | the invariants of the pivoting loop (`P_NetInit.v`, `P_NetPot.v`, `P_NetPivot.v`) restated for any tree solution; change of cost by summing reduced costs over the arcs (`C_SimplexTree.v`) |
| C73 | `simplex_redraw`, `simplex_mark_st_arcs`, `simplex_find_cycle`, `simplex_augment_cycle`, `simplex_connect` | invariants of the searches (`P_NetLoop.v`, `P_NetCycle.v`, `P_NetInit.v`); a closed walk that passes its last arc once contradicts acyclicity; the loop over the arcs by induction with its failing arc (`C_SimplexHelp.v`) |
| C74 | `Graph.__init__`, `Tree.__init__`, `BinaryTree.__init__` | lookup in the dict the constructor builds; every building call, branch by branch and without hypotheses on the state, leaves type and graph attributes alone; induction over the history (`C_New.v`) |

## 4. Trusted base

* The kernel of Coq 8.16.1, with `vm_compute` (used in examples and refutations). No `native_compute`, no OCaml plugins, no
  kernel check switched off.
* `Print Assumptions` is run under every property theorem (in the `C_*.v` files). It answers "Closed under the global context"
  for each of them: no axiom is used, neither one of ours (there is none) nor one of the standard library. The constants
  `Coq.ssr.ssrunder.Under_rel.*` that a scan of the loaded libraries lists belong to the module `Under_rel` of Coq's own
  `theories/ssr/ssrunder.v`, which is sealed by a module type and has a definition or proof for each of them in that file; no
  theorem depends on them.
* The reading of the Python source and the substrate `Py.v` (dicts, exceptions, loops).
* The laws of external parts, all of them hypotheses in the theorem statements: `bag`, `fifo`, `prioq` for blimpy's containers
  (`S_Frontier.v`); the record `env` of programs for `display`; the LP solver and queue of `BB.py` (`S_BB.v`) and the LP solver of
  `simplex_test.py` (`S_LP.v`). Each law has an instance in the development.

## 5. Where the code disagrees with its documentation

Each line names the theorem that says it.

* `C05_del_node_undirected_raises`: `del_node` fails on undirected graphs. `C07_untyped_raises`, and C07: `get_degrees` returns
  None on directed graphs.
* C09: DOT output of an undirected graph raises KeyError when a cluster contains both ends of an edge. C10: quoting gaps.
  `C42_default_shared_refuted`: clusters share their default attributes. `C42_reused_name_refuted`: reusing a cluster's name.
* `C12_selfloop_refuted`, `C15_bfs_distance_refuted`, `C16_selfloop_refuted`: details of `search`.
  C53, C54: reversed Dijkstra and depth-first search on a priority queue can raise.
* `C20_transpose_diverges`, `C22_interior_source_raises`, `C23_incremental_refuted`, `C50_documented_refuted`.
* `C66_repr_refuted`: `repr` does not show the direction; C66: `print_flow` also prints negative flows.
* `C67_prim_history_refuted`, `C67_binary_traverse_refuted`: after an exception a shared default queue disturbs later calls on other objects.
* `C68_delete_all_refuted`: deleting every edge in a loop over `get_neighbors` leaves every second one. `C68_write_refuted`: a caller that writes to the list breaks the graph.
* `C25_reused_item_refuted`, `C25_repeated_item_refuted`: `DisjointSet` with an item added twice.
* `C27_antiparallel_refuted`, `C28_unlimited_refuted`; `C29_antiparallel_refuted`, `C29_source_loop_refuted`: preflow-push can run for ever.
* `C30_*_refuted`, `C31_*`: Floyd-Warshall with loops and undirected graphs. `C32_positive_refuted`, `C32_finds_refuted`: the cycle found need not be negative, and the call may raise although a negative cycle exists. `C33_py3_raises`: `fifo_label_correcting`
  raises on Python 3.
* `C36_shortfall_refuted`; `C37_termination_refuted`, `C56_termination_refuted`: both minimum cost flow methods can run for ever; `C37_raises_refuted`: `cycle_canceling` raises an exception on a feasible instance.
* C39: rule `'first_eligible'` returns the last eligible arc; `C39_unknown_rule`: every rule but two raises, the documented
  `'scaled'` included.
* C40: `get_diameter` returns the largest distance, not the documented smallest eccentricity.
* `C43_parent_keyword_refuted`, `C44_default_root_refuted`, `C45_*_refuted`, `C47_dfs_priority_refuted`, `C48_zero_name_refuted`: trees.
* `C51_*_raises`, `C51_undirected_parallel_refuted`: `random`. `C52_after_search_refuted`: Prim's method after `search`.
* `C60_restore_refuted`: highlighting is not undone. C61: `create` leaves its temporary file when Graphviz fails.
* `C62_infinity_refuted`, `C63_best_first_refuted`: `BB.py`. `C64_message_refuted`, `C64_truncation_refuted`,
  `C65_balanced_refuted`, `C65_too_many`: `simplex_test.py`.
* `C73_find_cycle_simple_refuted`: the cycle returned by `simplex_find_cycle` may repeat nodes. `C73_mark`: two colours, not five.

## 6. Testing the theorems

`seeded/LOG.jsonl` has one line per wrong program that was tried: the definition edited, the edit, the claim it breaks, the
theorems or lemmas that failed, and the theorems that were tightened because nothing failed.

How to read it: `theorems_failed` names the first proofs that broke when the edited model was rebuilt. A broken proof does not by
itself show that the statement became false. It can also break because its script no longer fits the edited text, and a lemma
that fails early hides what later theorems would have done. Most lines were not followed up with a counterexample to the statement.
