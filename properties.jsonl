{"id": "C01", "title": "Directed adjacency views never diverge", "statement": "For a directed Graph, after any history of add_node/add_edge/del_edge/del_node/set_node_attr/set_edge_attr calls (also calls that raise), for all n,m: m is in get_out_neighbors(n) iff n is in get_in_neighbors(m) iff check_edge(n,m) iff (n,m) is in get_edge_list(); no neighbour list and no node/edge list contains a duplicate; every endpoint of an edge is in get_node_list().", "quantifier": "all finite operation histories on a directed graph, all node names", "why_tests_cant": "Unit tests only run a handful of call histories; the claim is about every finite history, including ones containing calls that raise.", "anchors": ["src/gimpy/graph.py:Graph.add_node", "src/gimpy/graph.py:Graph.add_edge", "src/gimpy/graph.py:Graph.del_edge", "src/gimpy/graph.py:Graph.del_node", "src/gimpy/graph.py:Graph.check_edge"]}
{"id": "C02", "title": "Undirected adjacency is symmetric and agrees with the edge list", "statement": "For an undirected Graph, after any history of add_node/add_edge/del_edge/attribute calls (also raising ones), m in get_neighbors(n) iff n in get_neighbors(m) iff check_edge(n,m) iff check_edge(m,n) iff one of (n,m),(m,n) is in get_edge_list(); an edge n-m with n!=m occurs exactly once in each endpoint's neighbour list and never with both orientations in the edge list.", "quantifier": "all finite operation histories on an undirected graph that do not call del_node", "why_tests_cant": "Unit tests only run a handful of call histories; the claim is about every finite history, including ones containing calls that raise.", "anchors": ["src/gimpy/graph.py:Graph.add_edge", "src/gimpy/graph.py:Graph.del_edge", "src/gimpy/graph.py:Graph.check_edge", "src/gimpy/graph.py:Graph.__contains__"]}
{"id": "C03", "title": "Duplicate nodes and edges are rejected atomically", "statement": "add_node of an existing name raises MultipleNodeException and add_edge of an existing edge (either orientation if undirected) raises MultipleEdgeException; in both cases the graph is left completely unchanged. Otherwise the call succeeds, the new node/edge is present with exactly the given attributes, and every other node, edge and attribute is unchanged.", "quantifier": "all well-formed graphs, all names and attribute dictionaries", "why_tests_cant": "Requires the frame (nothing else changes) for every graph.", "anchors": ["src/gimpy/graph.py:Graph.add_node", "src/gimpy/graph.py:Graph.add_edge", "src/gimpy/global_constants.py:MultipleNodeException"]}
{"id": "C04", "title": "del_edge undoes add_edge", "statement": "Adding an edge between two existing nodes and then deleting it gives back exactly the previous graph (all views, orders and attributes); deleting an absent edge raises and changes nothing; deleting a present edge removes that edge only, and every neighbour list keeps its order.", "quantifier": "all well-formed graphs, all node pairs, all attributes", "why_tests_cant": "Round-trip law over all states, including list order.", "anchors": ["src/gimpy/graph.py:Graph.add_edge", "src/gimpy/graph.py:Graph.del_edge"]}
{"id": "C05", "title": "del_node removes a node with exactly its incident edges", "statement": "On a directed graph del_node(n) on an existing node succeeds, removes n and exactly the edges incident to n, and leaves all other nodes, edges, attributes and list orders unchanged; on a missing node it raises and changes nothing. On an undirected graph, contrary to the documentation, del_node raises an exception on every graph and every node.", "quantifier": "all well-formed directed graphs / all undirected graphs, all names", "why_tests_cant": "A universally quantified frame property, plus a failure for every undirected input.", "anchors": ["src/gimpy/graph.py:Graph.del_node"]}
{"id": "C06", "title": "Attribute reads see the latest write and nothing else changes", "statement": "After set_node_attr(n,a,v), get_node_attr(n,a)=v and every other (node,attr) and every edge attribute reads as before; same for set_edge_attr/get_edge_attr, where on undirected graphs (n,m) and (m,n) name the same edge for reads and writes. Reading or writing an attribute of a missing node or edge raises (AttributeError, KeyError) and leaves the graph unchanged.", "quantifier": "all well-formed graphs, nodes/edges, attributes, values", "why_tests_cant": "Memory-law over all states.", "anchors": ["src/gimpy/graph.py:Graph.set_node_attr", "src/gimpy/graph.py:Graph.get_node_attr", "src/gimpy/graph.py:Graph.set_edge_attr", "src/gimpy/graph.py:Graph.get_edge_attr", "src/gimpy/graph.py:Node.get_attr"]}
{"id": "C07", "title": "Counts and degrees are consistent (handshake)", "statement": "get_node_num()=len(get_node_list()), get_edge_num()=len(get_edge_list()); on an undirected graph constructed with type= the get_degrees() values sum to 2*get_edge_num(); on a directed graph get_in_degrees() and get_out_degrees() each sum to get_edge_num() and, contrary to the documentation, get_degrees() returns None for every directed graph; all three raise KeyError on a Graph() built without an explicit type.", "quantifier": "all well-formed graphs", "why_tests_cant": "The claim ranges over every graph (any size, shape, insertion order, previous attribute contents); tests only sample a few graphs.", "anchors": ["src/gimpy/graph.py:Graph.get_degrees", "src/gimpy/graph.py:Graph.get_in_degrees", "src/gimpy/graph.py:Graph.get_out_degrees", "src/gimpy/graph.py:Graph.get_node_num", "src/gimpy/graph.py:Graph.get_edge_num"]}
{"id": "C08", "title": "DOT output lists every node and every edge exactly once", "statement": "For a graph without clusters, to_string() succeeds and consists of the header, then exactly one statement per node (in node-list order), then exactly one statement per edge (in edge-list order), then '}'. For a directed graph with pairwise disjoint clusters of existing nodes the same holds up to order, with each cluster's nodes and internal edges inside its subgraph.", "quantifier": "all well-formed graphs", "why_tests_cant": "The claim ranges over every graph (any size, shape, insertion order, previous attribute contents); tests only sample a few graphs.", "anchors": ["src/gimpy/graph.py:Graph.to_string", "src/gimpy/graph.py:Graph.edge_to_string", "src/gimpy/graph.py:Node.to_string"]}
{"id": "C09", "title": "DOT output of undirected clustered graphs", "statement": "to_string() of an undirected graph raises KeyError whenever some cluster contains both ends of an edge (n!=m): check_edge accepts the reversed pair but edge_to_string looks it up only in the stored orientation.", "quantifier": "all undirected well-formed graphs with a cluster containing an internal edge", "why_tests_cant": "Failure occurs for every such graph.", "anchors": ["src/gimpy/graph.py:Graph.to_string", "src/gimpy/graph.py:Graph.edge_to_string", "src/gimpy/graph.py:Graph.create_cluster"]}
{"id": "C10", "title": "Quoting of DOT identifiers", "statement": "For every string s over characters other than backslash, double quote, comma, colon, angle brackets and control characters, that is not a DOT keyword, quote_if_necessary(s) is a single DOT ID token that denotes s again. So is every string without backslashes, double quotes, line ends and opening angle brackets that has a character other than letters, digits, underscores, commas and colons. Outside these classes the guarantee fails: distinct strings can be emitted as the same token and a string ending in a backslash is emitted as an unterminated quoted string.", "quantifier": "all strings", "why_tests_cant": "Infinite input space with adversarial corner cases.", "anchors": ["src/gimpy/global_constants.py:quote_if_necessary", "src/gimpy/global_constants.py:needs_quotes"]}
{"id": "C11", "title": "search visits exactly the reachable nodes, whatever the frontier", "statement": "search(source) without destination, for DFS, BFS/UnweightedSPT, Dijkstra and Prim, with any frontier q that behaves like a bag, terminates, and the keys of the returned predecessor dictionary together with source are exactly the nodes reachable from source (along reversed arcs when reverse=True on a directed graph). Every entry pred[n]=p is an edge from p to n.", "quantifier": "all well-formed graphs, sources, frontier disciplines (including every tie-break and choice of removed occurrence)", "why_tests_cant": "Quantifies over all graphs and all queue behaviours.", "anchors": ["src/gimpy/graph.py:Graph.search", "src/gimpy/graph.py:Graph.process_edge_search"]}
{"id": "C12", "title": "search with a destination returns a real path or None", "statement": "search(source,destination) returns a list that starts at source, ends at destination, and whose consecutive nodes are joined by edges, if destination is reachable, and None otherwise (the docstring's predecessor tree is never returned). For DFS this needs a graph without self-loops: with a self-loop on an intermediate node the call does not terminate.", "quantifier": "all well-formed graphs, sources, destinations, frontier disciplines", "why_tests_cant": "The claim ranges over every graph (any size, shape, insertion order, previous attribute contents); tests only sample a few graphs.", "anchors": ["src/gimpy/graph.py:Graph.search"]}
{"id": "C13", "title": "BFS search returns paths with the fewest edges", "statement": "search(source,destination,algo='BFS') returns a path with the minimum number of edges among all paths from source to destination.", "quantifier": "all well-formed graphs and node pairs", "why_tests_cant": "The claim ranges over every graph (any size, shape, insertion order, previous attribute contents); tests only sample a few graphs.", "anchors": ["src/gimpy/graph.py:Graph.search", "src/gimpy/graph.py:Graph.process_edge_search"]}
{"id": "C14", "title": "BFS search leaves hop distances in the 'distance' attribute", "statement": "After search(source,algo='BFS' or 'UnweightedSPT') without destination, the 'distance' attribute of every node is its minimum number of edges from source, or None if unreachable (to source, for reverse=True).", "quantifier": "all well-formed graphs and sources, any earlier attribute contents", "why_tests_cant": "The claim ranges over every graph (any size, shape, insertion order, previous attribute contents); tests only sample a few graphs.", "anchors": ["src/gimpy/graph.py:Graph.search", "src/gimpy/graph.py:Graph.process_edge_search"]}
{"id": "C15", "title": "bfs() is a breadth-first search", "statement": "Documentation: bfs() performs a breadth-first search. The code runs the DFS edge-processing rule on a FIFO queue: the set of nodes visited is the reachable set, but the 'distance' values left behind are not the hop distances on some graphs. On graphs with no edge from a node to itself each label is the depth of the node in the tree of predecessors: every reached node ends a simple path from the root whose labels are 0, 1, 2, ..., so a label lies between the hop distance and the number of nodes.", "quantifier": "all well-formed graphs and roots", "why_tests_cant": "Needs a proof for the visited set over all graphs and a machine-checked counterexample for the distances.", "anchors": ["src/gimpy/graph.py:Graph.bfs"]}
{"id": "C16", "title": "Dijkstra search computes shortest paths", "statement": "On a graph whose 'cost' attributes are non-negative integers and without a self-loop at source, search(source,algo='Dijkstra') gives every reachable node n a 'priority' attribute equal to the least cost of any path from source to n, and the predecessor dictionary describes paths of that cost; with a destination the returned path has least cost. With a self-loop at source the result is wrong on some graphs.", "quantifier": "all well-formed graphs with non-negative integer costs, all sources/destinations, all priority-queue tie-breaks", "why_tests_cant": "The claim ranges over every graph (any size, shape, insertion order, previous attribute contents); tests only sample a few graphs.", "anchors": ["src/gimpy/graph.py:Graph.search", "src/gimpy/graph.py:Graph.process_edge_dijkstra", "src/gimpy/graph.py:Graph.process_node_search"]}
{"id": "C17", "title": "Prim search returns a minimum spanning tree of the source's component", "statement": "On an undirected loop-free graph with integer costs, search(source,algo='Prim') returns a predecessor dictionary whose edges form a spanning tree of source's component with total cost no larger than that of any other spanning tree; if no cost is negative, no larger than that of any edge set connecting the component.", "quantifier": "all well-formed undirected graphs with integer costs, all tie-breaks", "why_tests_cant": "The claim ranges over every graph (any size, shape, insertion order, previous attribute contents); tests only sample a few graphs.", "anchors": ["src/gimpy/graph.py:Graph.search", "src/gimpy/graph.py:Graph.process_edge_prim"]}
{"id": "C18", "title": "Component labelling is exact", "statement": "After label_components() on an undirected graph, every node has an integer 'component' and two nodes have the same component iff they are connected; num_components is the number of connected components; directed graphs are rejected with an exception.", "quantifier": "all well-formed undirected graphs, any earlier attribute contents", "why_tests_cant": "The claim ranges over every graph (any size, shape, insertion order, previous attribute contents); tests only sample a few graphs.", "anchors": ["src/gimpy/graph.py:Graph.label_components", "src/gimpy/graph.py:Graph.search"]}
{"id": "C19", "title": "search touches only its documented attributes", "statement": "search() never changes the node set, edge set, adjacency lists or any edge attribute other than 'color'; on nodes it only changes 'label','priority','distance','color','component','depth'.", "quantifier": "all graphs and all arguments", "why_tests_cant": "Frame over all inputs.", "anchors": ["src/gimpy/graph.py:Graph.search", "src/gimpy/graph.py:Graph.process_edge_search"]}
{"id": "C20", "title": "Recursive dfs visits exactly what is reachable through undiscovered nodes", "statement": "dfs(root) terminates and gives a discovery and finish time to exactly the nodes reachable from root along nodes that had no 'disc_time' before the call; discovery and finish times issued are distinct consecutive integers.", "quantifier": "all well-formed graphs, roots and earlier attribute contents", "why_tests_cant": "The claim ranges over every graph (any size, shape, insertion order, previous attribute contents); tests only sample a few graphs.", "anchors": ["src/gimpy/graph.py:Graph.dfs"]}
{"id": "C21", "title": "dfs topological order", "statement": "If the part of a directed graph reachable from root is acyclic and has no disc_time attribute yet, dfs(root,topological_order=L) with L empty leaves in L every reachable node exactly once, each before all its successors.", "quantifier": "all well-formed directed graphs whose reachable part is acyclic", "why_tests_cant": "The claim ranges over every graph (any size, shape, insertion order, previous attribute contents); tests only sample a few graphs.", "anchors": ["src/gimpy/graph.py:Graph.dfs"]}
{"id": "C22", "title": "acyclic_shortest_path on DAGs", "statement": "On a DAG with integer costs (any sign) all of whose nodes are reachable from source and have no disc_time, acyclic_shortest_path(source,dest) returns a least-cost path. It fails with IndexError when called twice on the same graph (with at least two nodes).", "quantifier": "all well-formed DAGs", "why_tests_cant": "The claim ranges over every graph (any size, shape, insertion order, previous attribute contents); tests only sample a few graphs.", "anchors": ["src/gimpy/graph.py:Graph.acyclic_shortest_path", "src/gimpy/graph.py:Graph.dfs"]}
{"id": "C23", "title": "Tarjan labels are exactly the strongly connected components", "statement": "On a directed graph whose nodes have no 'index' attribute, label_strong_component() gives every node a 'component', equal for two nodes iff each is reachable from the other, and num_components is the number of components. Calling it a second time keeps the labels but resets num_components to 0.", "quantifier": "all well-formed directed graphs", "why_tests_cant": "The claim ranges over every graph (any size, shape, insertion order, previous attribute contents); tests only sample a few graphs.", "anchors": ["src/gimpy/graph.py:Graph.tarjan", "src/gimpy/graph.py:Graph.strong_connect", "src/gimpy/graph.py:Graph.label_strong_component"]}
{"id": "C24", "title": "Kruskal returns a minimum spanning forest", "statement": "minimum_spanning_tree_kruskal() returns a list of edges of the graph that is acyclic, connects exactly the nodes connected in the graph, and has total cost no larger than any other such list; when no cost is negative, no list of edges connecting the same nodes is cheaper. It changes nothing but edge colors.", "quantifier": "all well-formed graphs with integer costs", "why_tests_cant": "The claim ranges over every graph (any size, shape, insertion order, previous attribute contents); tests only sample a few graphs.", "anchors": ["src/gimpy/graph.py:Graph.minimum_spanning_tree_kruskal", "src/gimpy/graph.py:DisjointSet"]}
{"id": "C25", "title": "DisjointSet is a union-find structure", "statement": "After any history of add (of fresh distinct items), union and find, with optimize on or off, find(i)=find(j) iff i and j were joined by the added lists and unions so far; union returns True iff the two items were not yet joined; find terminates and never changes which items are joined.", "quantifier": "all histories of operations, both optimize settings", "why_tests_cant": "Unit tests only run a handful of call histories; the claim is about every finite history, including ones containing calls that raise.", "anchors": ["src/gimpy/graph.py:DisjointSet.add", "src/gimpy/graph.py:DisjointSet.union", "src/gimpy/graph.py:DisjointSet.find"]}
{"id": "C26", "title": "max_flow yields a feasible flow", "statement": "On a directed graph without antiparallel arcs and with non-negative integer capacities, after max_flow(source,sink) (source!=sink, DFS or BFS) the 'flow' attributes satisfy 0<=flow<=capacity on each arc and conservation at each node other than source and sink; the call terminates.", "quantifier": "all such graphs, source/sink pairs", "why_tests_cant": "The claim ranges over every graph (any size, shape, insertion order, previous attribute contents); tests only sample a few graphs.", "anchors": ["src/gimpy/graph.py:Graph.max_flow"]}
{"id": "C27", "title": "max_flow yields a maximum flow", "statement": "Under the same preconditions the value of the flow left by max_flow is at least the value of every feasible flow, and equals the capacity of some cut.", "quantifier": "all such graphs, all competing flows", "why_tests_cant": "Optimality quantifies over all competing flows.", "anchors": ["src/gimpy/graph.py:Graph.max_flow"]}
{"id": "C28", "title": "Missing capacities behave as 10000, not as unlimited", "statement": "An arc without 'capacity' gets capacity 10000 (INF) from max_flow, so the reported flow through it never exceeds 10000 even if an unlimited arc would carry more.", "quantifier": "all graphs with arcs lacking a capacity", "why_tests_cant": "The claim ranges over every graph (any size, shape, insertion order, previous attribute contents); tests only sample a few graphs.", "anchors": ["src/gimpy/graph.py:Graph.max_flow", "src/gimpy/global_constants.py:INF"]}
{"id": "C29", "title": "Preflow-push yields a feasible maximum flow", "statement": "On every directed graph with non-negative integer capacities (10000 where missing), for distinct nodes source and sink and no arc from source to itself, max_flow_preflowpush(source, sink, algo) with algo 'FIFO', 'SAP' or 'HighestLabel' raises no exception, and whenever it returns the stored flow is feasible and maximum, its value being the capacity of a cut; the nodes, the arcs and all attributes other than flow, capacity, label, color, excess, distance, component, priority, depth and the display mode are unchanged. It returns if no two nodes have arcs in both directions and sink can be reached from source and from every node that an arc of nonzero capacity leads to from source. With any other algo it raises NameError after filling the arcs that leave source.", "quantifier": "all such graphs, sources, sinks, selection rules, display modes and behaviours of the container of active nodes", "why_tests_cant": "The claim ranges over every graph (any size, shape, insertion order, previous attribute contents); tests only sample a few graphs.", "anchors": ["src/gimpy/graph.py:Graph.max_flow_preflowpush", "src/gimpy/graph.py:Graph.process_edge_flow", "src/gimpy/graph.py:Graph.relabel"]}
{"id": "C30", "title": "floyd_warshall distances are shortest distances", "statement": "On a directed graph with integer costs, floyd_warshall() returns valid=True iff there is no closed walk of negative cost, and then distance[(i,j)] is the least cost of a path from i to j and 'infinity' iff there is none, for i != j and for i = j without a self-loop (with a self-loop of positive cost distance[(i,i)] is wrong; undirected edges are followed in one direction only).", "quantifier": "all well-formed directed graphs with integer costs", "why_tests_cant": "The claim ranges over every graph (any size, shape, insertion order, previous attribute contents); tests only sample a few graphs.", "anchors": ["src/gimpy/graph.py:Graph.floyd_warshall"]}
{"id": "C31", "title": "floyd_warshall_get_path", "statement": "After a valid floyd_warshall, floyd_warshall_get_path(distance, nextn, i, j) for i != j returns None iff j is unreachable, and otherwise terminates with a shortest simple path in which every intermediate node is written three times (so the documented 'list of nodes on the path' is refuted as soon as the path has two arcs); for i = j it raises KeyError.", "quantifier": "all graphs without negative cycles", "why_tests_cant": "The claim ranges over every graph (any size, shape, insertion order, previous attribute contents); tests only sample a few graphs.", "anchors": ["src/gimpy/graph.py:Graph.floyd_warshall_get_path"]}
{"id": "C32", "title": "Negative cycle extraction returns a cycle of the graph", "statement": "On a nonempty directed graph with integer costs and no negative self-loop, get_negative_cycle() returns None exactly when there is no closed walk of negative cost; any list it returns is a nonempty closed walk without repeated nodes along arcs of the graph; it raises nothing but the explicit Exception of floyd_warshall_get_cycle. The returned cycle is not always negative: its cost can be 0 or positive (refuted). The call can raise that Exception although a negative cycle exists (refuted). A negative self-loop gives KeyError and the empty graph IndexError.", "quantifier": "all well-formed directed graphs with integer costs", "why_tests_cant": "The claim ranges over every graph (any size, shape, insertion order, previous attribute contents); tests only sample a few graphs.", "anchors": ["src/gimpy/graph.py:Graph.get_negative_cycle", "src/gimpy/graph.py:Graph.floyd_warshall_get_cycle"]}
{"id": "C33", "title": "fifo_label_correcting under Python 3", "statement": "Documentation: computes shortest path labels. In Python 3 the call raises TypeError for every graph in which source has an out-neighbour other than itself that is examined, because the string 'inf' is compared with a number.", "quantifier": "all graphs, all sources with an out-neighbour different from source", "why_tests_cant": "The failure is universal.", "anchors": ["src/gimpy/graph.py:Graph.fifo_label_correcting"]}
{"id": "C34", "title": "Residual graph is exact", "statement": "create_residual_graph() on a directed graph without antiparallel arcs or loops returns a directed graph containing arc (i,j) with capacity cap-flow and cost c iff (i,j) is an arc with flow<capacity, and arc (j,i) with capacity flow and cost -c iff (i,j) is an arc with flow>0, and nothing else.", "quantifier": "all such graphs", "why_tests_cant": "The claim ranges over every graph (any size, shape, insertion order, previous attribute contents); tests only sample a few graphs.", "anchors": ["src/gimpy/graph.py:Graph.create_residual_graph"]}
{"id": "C35", "title": "Augmenting along a cycle keeps the flow balanced", "statement": "augment_cycle(amount,cycle) along a cycle without repeated nodes changes no node's net flow and, if amount is at most find_cycle_capacity(cycle) of the residual graph, keeps every flow within its bounds.", "quantifier": "all flows, all cycles, all amounts", "why_tests_cant": "The claim ranges over every graph (any size, shape, insertion order, previous attribute contents); tests only sample a few graphs.", "anchors": ["src/gimpy/graph.py:Graph.augment_cycle", "src/gimpy/graph.py:Graph.find_cycle_capacity"]}
{"id": "C36", "title": "find_feasible_flow decides feasibility", "statement": "With integer demands summing to zero (at least one non-zero), non-negative integer capacities and no antiparallel arcs or nodes 's','t', find_feasible_flow() returns True iff a feasible flow exists, integer or fractional; the flow stored is then feasible and the node and edge sets are those of the input. If total supply is smaller than total demand it can return True although demands are unmet.", "quantifier": "all such graphs", "why_tests_cant": "The claim ranges over every graph (any size, shape, insertion order, previous attribute contents); tests only sample a few graphs.", "anchors": ["src/gimpy/graph.py:Graph.find_feasible_flow"]}
{"id": "C37", "title": "Cycle canceling returns a minimum cost flow", "statement": "If cycle_canceling() returns True, the stored flow is feasible and its cost is at most that of any feasible flow, fractional ones included; if it returns False no feasible flow exists, not even a fractional one. It can also run for ever on a feasible bounded instance (a zero-cost pair of an arc and its own reverse in the residual graph is chosen as the cycle again and again). It can also raise an Exception on a feasible instance; whenever it raises one, the stored flow is feasible. Apart from flows, capacities that were missing, colors and labels the graph is left as it was.", "quantifier": "all such graphs, all competing flows", "why_tests_cant": "Optimality quantifies over all competing flows.", "anchors": ["src/gimpy/graph.py:Graph.cycle_canceling", "src/gimpy/graph.py:Graph.min_cost_flow"]}
{"id": "C38", "title": "Network simplex optimality test is sound", "statement": "If simplex_optimal accepts a spanning-tree solution whose node potentials make tree arcs tight and whose non-tree arcs are at a bound, then the stored feasible flow has minimum cost among all feasible flows, fractional ones included.", "quantifier": "all graphs, trees, flows, potentials", "why_tests_cant": "Optimality quantifies over all competing flows.", "anchors": ["src/gimpy/graph.py:Graph.simplex_optimal", "src/gimpy/graph.py:Graph.simplex_compute_potentials"]}
{"id": "C39", "title": "Entering arc selection", "statement": "simplex_select_entering_arc with 'dantzig' returns an arc of maximum violation among the eligible ones. With 'first_eligible', contrary to its name, it returns the last eligible arc in edge-list order.", "quantifier": "all graphs, trees and potentials with an eligible arc", "why_tests_cant": "The claim ranges over every graph (any size, shape, insertion order, previous attribute contents); tests only sample a few graphs.", "anchors": ["src/gimpy/graph.py:Graph.simplex_select_entering_arc"]}
{"id": "C40", "title": "get_diameter", "statement": "On an undirected graph (constructed with type=) get_diameter() returns the largest hop distance between two nodes if the graph is connected and non-empty (not the documented min-max), and 'infinity' otherwise.", "quantifier": "all well-formed undirected graphs", "why_tests_cant": "The claim ranges over every graph (any size, shape, insertion order, previous attribute contents); tests only sample a few graphs.", "anchors": ["src/gimpy/graph.py:Graph.get_diameter"]}
{"id": "C41", "title": "page_rank is well defined", "statement": "page_rank() on a directed graph never divides by zero, returns exactly one value per node, and, in exact arithmetic with 0<=damping<=1, every value is at least (1-damping)/n. After at most k iterations the errors of the page rank equations add up to at most 2*damping^(k+1), or at most damping*min_delta if the call stopped early; hence (1-damping) times the total distance from the page rank (unique if damping<1) has the same bound, and so has (1-damping) times the gap between the sum of the values and 1 when every node has an arc leaving it. On an undirected graph with nodes the first iteration raises AttributeError.", "quantifier": "all well-formed directed graphs, all damping factors in [0,1], all iteration limits and deltas", "why_tests_cant": "The claim ranges over every graph (any size, shape, insertion order, previous attribute contents); tests only sample a few graphs.", "anchors": ["src/gimpy/graph.py:Graph.page_rank"]}
{"id": "C42", "title": "Clusters are kept apart", "statement": "Documentation: creating a cluster whose name exists raises. The code never detects a reused name (it silently replaces the older cluster), and two calls relying on the default cluster_attrs share one name so the second replaces the first.", "quantifier": "all graphs and cluster arguments", "why_tests_cant": "Concerns hidden state across calls.", "anchors": ["src/gimpy/graph.py:Graph.create_cluster"]}
{"id": "C43", "title": "Tree structure invariant", "statement": "For every history of add_root/add_child on a Tree (also raising calls): every non-root node has exactly one parent, equal to get_parent and to its unique in-neighbour, level(child)=level(parent)+1, get_children(p) lists exactly the nodes whose parent is p, and the parent relation has no cycle.", "quantifier": "all histories", "why_tests_cant": "Unit tests only run a handful of call histories; the claim is about every finite history, including ones containing calls that raise.", "anchors": ["src/gimpy/tree.py:Tree.add_root", "src/gimpy/tree.py:Tree.add_child", "src/gimpy/tree.py:Tree.get_parent", "src/gimpy/tree.py:Tree.get_children"]}
{"id": "C44", "title": "Tree traversal from a named root visits each descendant once", "statement": "Tree.dfs(root=n)/bfs(root=n) visit every descendant of n exactly once (bfs in order of non-decreasing level). Calling dfs()/bfs() without root raises KeyError on every tree with a root.", "quantifier": "all trees built by the API", "why_tests_cant": "The claim ranges over every graph (any size, shape, insertion order, previous attribute contents); tests only sample a few graphs.", "anchors": ["src/gimpy/tree.py:Tree.traverse", "src/gimpy/tree.py:Tree.dfs", "src/gimpy/tree.py:Tree.bfs"]}
{"id": "C45", "title": "Binary tree child slots", "statement": "For every history of add_root/add_left_child/add_right_child in which no call raises, each node's left and right child are distinct existing nodes with matching parent/direction. A raising call with an already used child name is not atomic: it overwrites the child slot, after which a traversal can loop forever.", "quantifier": "all histories", "why_tests_cant": "Unit tests only run a handful of call histories; the claim is about every finite history, including ones containing calls that raise.", "anchors": ["src/gimpy/tree.py:BinaryTree.add_left_child", "src/gimpy/tree.py:BinaryTree.add_right_child", "src/gimpy/tree.py:BinaryTree.get_left_child"]}
{"id": "C46", "title": "print_nodes order", "statement": "On a binary tree built by the API print_nodes(order,priority) prints every node below root exactly once in pre-, in- or post-order with the prioritised child first.", "quantifier": "all binary trees, orders and priorities", "why_tests_cant": "The claim ranges over every graph (any size, shape, insertion order, previous attribute contents); tests only sample a few graphs.", "anchors": ["src/gimpy/tree.py:BinaryTree.print_nodes"]}
{"id": "C47", "title": "Binary tree dfs/bfs order", "statement": "BinaryTree.bfs visits level by level with the prioritised child first; BinaryTree.dfs visits in pre-order but, contrary to the documented priority, explores the non-prioritised child first.", "quantifier": "all binary trees", "why_tests_cant": "The claim ranges over every graph (any size, shape, insertion order, previous attribute contents); tests only sample a few graphs.", "anchors": ["src/gimpy/tree.py:BinaryTree.traverse", "src/gimpy/tree.py:BinaryTree.dfs", "src/gimpy/tree.py:BinaryTree.bfs"]}
{"id": "C48", "title": "postordereval evaluates expression trees without zero values", "statement": "On a full binary expression tree over integers with + - * / whose proper subexpressions are all non-zero and whose node names are truthy, postordereval returns the value of the expression; if a proper subexpression evaluates to 0 (and names are not numeric) it raises ValueError.", "quantifier": "all expression trees", "why_tests_cant": "The claim ranges over every graph (any size, shape, insertion order, previous attribute contents); tests only sample a few graphs.", "anchors": ["src/gimpy/tree.py:BinaryTree.postordereval"]}
{"id": "C49", "title": "printexp prints the expression in infix order", "statement": "On a full binary tree printexp prints the fully parenthesised infix expression; the printed token list determines the expression uniquely.", "quantifier": "all full binary trees", "why_tests_cant": "The claim ranges over every graph (any size, shape, insertion order, previous attribute contents); tests only sample a few graphs.", "anchors": ["src/gimpy/tree.py:BinaryTree.printexp"]}
{"id": "C50", "title": "hamiltonian never finds a path", "statement": "Documentation: returns True iff a Hamiltonian path exists. The code calls a method that does not exist whenever source has a neighbour that is not visited, and without destination never returns True.", "quantifier": "all graphs and sources", "why_tests_cant": "The claim ranges over every graph (any size, shape, insertion order, previous attribute contents); tests only sample a few graphs.", "anchors": ["src/gimpy/graph.py:Graph.hamiltonian"]}
{"id": "C51", "title": "random produces valid graphs", "statement": "For any stream of random numbers, random() on a graph holding none of the names 0..numnodes-1 adds exactly those nodes, with node_format, and edges without self-loops between them that carry edge_format, keeping everything already there. With Euclidean=False the cost of each new edge lies in length_range and is its label when add_labels is set, and without parallel_allowed no two new edges join the same nodes in opposite directions; with a degree range at most degree_range[1] edges leave a node, no edge enters node 0, without a length_range no edge is added, and with add_labels=False and a length_range the method raises MultipleEdgeException as soon as it adds its first edge. With Euclidean=True and node_selection='closest' each cost is the rounded distance of its end points, every node strictly closer to m than an end point chosen for m is joined to m, and every node is joined to at least degree_range[0] others; node_selection='random' raises. A name already taken raises MultipleNodeException. With the default arguments on a new graph it always succeeds: ten nodes in the default format, whole costs from 1 to 10 shown as labels, at most four edges starting at a node, no loops and no reversed duplicates.", "quantifier": "all random streams, all sizes", "why_tests_cant": "Quantifies over all outcomes of the random generator.", "anchors": ["src/gimpy/graph.py:Graph.random"]}
{"id": "C52", "title": "Prim method returns a spanning tree", "statement": "minimum_spanning_tree_prim(source) on an undirected loop-free graph whose nodes carry no 'color' attribute 'green' returns a predecessor dictionary describing a minimum spanning tree of source's component; when run after search() has coloured the nodes it returns an empty or partial tree.", "quantifier": "all well-formed undirected graphs with integer costs", "why_tests_cant": "The claim ranges over every graph (any size, shape, insertion order, previous attribute contents); tests only sample a few graphs.", "anchors": ["src/gimpy/graph.py:Graph.minimum_spanning_tree_prim"]}
{"id": "C53", "title": "Reverse search with Dijkstra needs both directions of every arc", "statement": "search(source,algo='Dijkstra',reverse=True) follows arcs backwards but looks the cost up in the forward direction. On a directed graph with integer costs on all arcs it either returns or raises KeyError. It raises KeyError if some arc enters source and none goes back, or if some node from which source can be reached is not joined to it by arcs that exist in both directions; it returns if no node that is so joined has an entering arc without an opposite (if moreover all arcs have their opposites, costs are not negative and source has no loop, the result is that of C16).", "quantifier": "all well-formed directed graphs with integer costs, all sources, all priority queues", "why_tests_cant": "The claim ranges over every graph (any size, shape, insertion order, previous attribute contents); tests only sample a few.", "anchors": ["src/gimpy/graph.py: Graph.search, Graph.process_edge_dijkstra"]}
{"id": "C54", "title": "DFS with a priority queue", "statement": "search(source) with the default algo='DFS' and a PriorityQueue as frontier either returns or raises TypeError, because 'distance' is never set by DFS on nodes other than source. It raises TypeError if some node is at distance two from source. It returns the neighbours of source, each with predecessor source, if no neighbour of source other than source has an arc to a node other than source.", "quantifier": "all well-formed graphs, directed or not, both directions, all sources, all priority queues", "why_tests_cant": "Concerns the documented claim that any frontier works with any algorithm.", "anchors": ["src/gimpy/graph.py: Graph.search, Graph.process_edge_search"]}
{"id": "C55", "title": "Label correcting is correct where 'inf' can be compared (Python 2)", "statement": "Where the comparison of the string 'inf' with a number is allowed and true (Python 2), fifo_label_correcting(source) terminates on every graph with integer costs, positive or negative, directed or undirected. It returns (False, cycle) exactly when a closed walk of negative cost can be reached from source, and cycle is then such a closed walk without repeated nodes. Otherwise it returns (True, pred), every reachable node's 'distance' is the least cost of a walk from source, following pred from it gives a walk of that cost, and the other nodes keep the label 'inf'. Only 'distance' attributes change.", "quantifier": "all graphs with integer costs, all sources", "why_tests_cant": "Termination and optimality quantify over all graphs and all competing walks.", "anchors": ["src/gimpy/graph.py:Graph.fifo_label_correcting", "src/gimpy/graph.py:Graph.label_correcting_check_cycle", "src/gimpy/graph.py:Graph.label_correcting_get_cycle"]}
{"id": "C56", "title": "The network simplex method finds a minimum cost flow", "statement": "On a connected directed graph with integer node names, integer demands that add up to zero and are not all zero, integer capacities and costs, nonnegative capacities and no two opposite arcs, network_simplex(display, pivot, root) with pivot 'dantzig' or 'first_eligible' and any node as root never raises. If it returns True the 'flow' attributes are a feasible flow of minimum cost (fractional flows included), if it returns False no feasible flow exists, not even a fractional one. Nodes, arcs, capacities, costs and all node attributes other than 'color' and 'potential' are kept. It returns whenever the problem is nondegenerate: all capacities are positive and the demand of no set of nodes, other than the empty set and all nodes, equals what some arcs at full capacity carry out of it minus what they carry into it. Otherwise it need not return: an arc of capacity 0 can enter and leave the tree for ever.", "quantifier": "all such graphs, all roots, both pivot rules, every stack-like frontier", "why_tests_cant": "Optimality compares with all feasible flows; the tree invariant must hold after every pivot sequence on every graph.", "anchors": ["src/gimpy/graph.py:Graph.network_simplex", "src/gimpy/graph.py:Graph.simplex_find_tree", "src/gimpy/graph.py:Graph.simplex_find_cycle", "src/gimpy/graph.py:Graph.simplex_connect", "src/gimpy/graph.py:Graph.simplex_search", "src/gimpy/graph.py:Graph.simplex_compute_potentials", "src/gimpy/graph.py:Graph.simplex_identify_cycle", "src/gimpy/graph.py:Graph.simplex_determine_leaving_arc", "src/gimpy/graph.py:Graph.simplex_remove_arc", "src/gimpy/graph.py:Graph.simplex_mark_st_arcs", "src/gimpy/graph.py:Graph.simplex_redraw"]}
{"id": "C57", "title": "min_cost_flow runs the method asked for and leaves optimal flows", "statement": "min_cost_flow(display, algo, pivot, root) has exactly the effect of network_simplex (algo 'simplex' or not given; root defaults to the first node, pivot to 'dantzig') or of cycle_canceling, and leaves the graph unchanged for any other algo. Under the preconditions of C56, whichever method is used, when the call returns and a feasible flow exists, the 'flow' attributes are a feasible flow of minimum cost, fractional flows included. With the simplex method the call returns on every nondegenerate problem (see C56).", "quantifier": "all graphs and arguments (dispatch); all graphs meeting the preconditions (optimality)", "why_tests_cant": "Optimality compares with all feasible flows on all graphs.", "anchors": ["src/gimpy/graph.py:Graph.min_cost_flow", "src/gimpy/graph.py:Graph.network_simplex", "src/gimpy/graph.py:Graph.cycle_canceling"]}
{"id": "C58", "title": "max_flow shows the flow and a minimum cut", "statement": "When max_flow(s, t) returns on a directed graph with nonnegative integer capacities, the 'label' of every arc is capacity/flow for the capacity and flow stored on it (the capacity may be shown as INF when it is 10000). If no two nodes have arcs in both directions, every node is blue or black, s and t are black, and s together with the blue nodes is the source side of a cut of minimum capacity: arcs leaving it are full, arcs entering it are empty, and no other cut separating s from t has a smaller capacity.", "quantifier": "all directed graphs with nonnegative integer capacities, all pairs of distinct nodes, DFS and BFS", "why_tests_cant": "The cut must be minimum among exponentially many cuts of every graph.", "anchors": ["src/gimpy/graph.py:Graph.max_flow"]}
{"id": "C59", "title": "max_flow_preflowpush shows the flow it computed", "statement": "When max_flow_preflowpush returns, the picture agrees with the stored numbers: every node is labelled excess/distance, where the excess is the inflow minus the outflow of the stored flow (0 except at source and sink), the distance of the source is the number of nodes and that of the sink is 0; every arc is labelled capacity/flow (INF for 10000), is red when full, otherwise green when it carries flow and black when it does not.", "quantifier": "all directed graphs with nonnegative integer capacities and no arc from the source to itself, all pairs of distinct nodes, all three selection rules", "why_tests_cant": "The labels are rewritten at many points of a run whose length depends on the graph; the claim is that no execution leaves a stale one.", "anchors": ["src/gimpy/graph.py:Graph.max_flow_preflowpush", "src/gimpy/graph.py:Graph.show_flow"]}
{"id": "C60", "title": "display changes nothing in the graph but colors and display settings", "statement": "display() with mode 'off' does nothing. In every other mode, whatever the installed packages, Graphviz, latex and the windowing libraries do, and also when the call raises, the nodes, edges, neighbours, clusters, all attributes of edges and all attributes of nodes except the color of highlighted nodes are what they were, and of the graph's own attributes only display, layout and d2tgraphstyle may change. A call that returns leaves the mode unchanged unless the package it needs is missing (then 'off') or the layout is 'dot2tex' (then 'file'); highlighted nodes end red when a file was written and black otherwise, so their previous color is lost. A highlighted name that is no node raises AttributeError before anything is written or shown.", "quantifier": "all graphs, all arguments, all display modes and layouts, all behaviours of the environment", "why_tests_cant": "The behaviour of the environment (missing programs, failing programs, exceptions at any of the external calls) cannot be enumerated by tests.", "anchors": ["src/gimpy/graph.py:Graph.display", "src/gimpy/graph.py:Graph.set_layout", "src/gimpy/graph.py:Graph.write", "src/gimpy/graph.py:Graph.create"]}
{"id": "C61", "title": "create, write and display write exactly the files they should", "statement": "If tempfile.mkstemp gives new names: create returns Graphviz's output for the DOT text of the graph and leaves the files as they were; write appends the DOT text (format 'dot') or Graphviz's output to the open file and touches nothing else; display in mode 'file' makes basename.format hold exactly that for the highlighted graph; modes 'PIL' and 'matplotlib' show it and leave no file, 'xdot' and unknown modes touch no file. Whatever happens, existing files other than basename.format (and basename.dot, basename.tex and the outputs of TeX for layout 'dot2tex') keep their content. When Graphviz is absent or fails, the temporary file of create is left behind.", "quantifier": "all graphs, arguments, file systems and behaviours of the environment", "why_tests_cant": "Failures may occur at any external call; the claim covers every such crash point.", "anchors": ["src/gimpy/graph.py:Graph.create", "src/gimpy/graph.py:Graph.write", "src/gimpy/graph.py:Graph.display"]}
{"id": "C62", "title": "Branch and bound finds an optimal 0-1 solution and draws the search tree", "statement": "With an exact LP solver, the script examples/BB.py ends for every 0-1 program, either branching rule and either search strategy, with or without complete enumeration, after solving at most 2^(n+1)-1 LPs. Its final LB is at least the value of every 0-1 solution; if some solution is worth more than -9999, opt is an optimal solution and LB its value. The drawn tree has one node per LP solved, in that order, each with the bounds, level, status and colour (as in the key) that belong to its LP and with the branching bound as the label of its edge; candidates have exactly the two children x <= 0 and x >= 1, all other nodes are leaves. A program whose solutions are all worth less than -9999 is reported like an infeasible one. Beside the tree the key is drawn in a cluster of its own: four filled nodes naming the colours, joined by invisible arcs without arrowheads, whatever the solver, queue and strategies do and even if the script raises.", "quantifier": "all 0-1 programs, exact LP solvers, queues, branching and search strategies, tree attributes", "why_tests_cant": "A test solves a few instances; optimality needs every instance and every order in which the queue may return the nodes.", "anchors": ["src/gimpy/examples/BB.py", "src/gimpy/tree.py:Tree.add_root", "src/gimpy/tree.py:Tree.add_child"]}
{"id": "C63", "title": "Order of the branch and bound search", "statement": "With a queue that returns an item of least priority: under DEPTH_FIRST, whenever a node is solved no node that is waiting at that time is deeper; under BEST_FIRST the node solved next has the worst (smallest) LP bound of all waiting nodes, so the search is not best-first (the program maximizes).", "quantifier": "all 0-1 programs, exact LP solvers, least-priority queues and branching rules", "why_tests_cant": "The claim ranges over all moments of all runs.", "anchors": ["src/gimpy/examples/BB.py"]}
{"id": "C64", "title": "simplex_test.py: the two pivot rules and the linear program agree", "statement": "On every minimum cost flow problem network_simplex accepts (see C56), the linear program that solve() builds allows exactly the feasible (fractional) flows and its objective is their cost. So with a correct solver the instance is skipped exactly when it has no feasible flow, and otherwise get_obj_value after 'first_eligible', get_obj_value after 'dantzig' and int() of the solver's value are the same number, the minimum cost, and the script ends with its success message (or with NameError when every instance was skipped). The message only reflects the last comparison, and int() turns a value slightly too small into the next lower integer.", "quantifier": "all graphs satisfying the preconditions, all solvers that return an optimal assignment whenever there is one, all frontiers that are bags, all numbers and orders of instances", "why_tests_cant": "the script itself is the test: it compares on 100 random six-node instances; equality of the three values for every network needs the optimality of the method and the equivalence of the program", "anchors": ["src/gimpy/examples/simplex_test.py: get_obj_value, solve, mGraph.network_simplex, __main__"]}
{"id": "C65", "title": "simplex_test.py: generate_graph", "statement": "If the ranges are not empty, generate_graph never raises whatever the random numbers. The graph it returns is directed, its arcs join different nodes of range(numnodes), no two arcs are opposite, capacities and costs are in their ranges; the demand and supply nodes are different, as many as asked for and with equal totals; each node's 'demand' is minus its demand, its supply or 0. If all nodes chosen have an arc, demands add up to zero, and with connectedness the instance satisfies the preconditions of network_simplex. A chosen node without arcs is left out, so demands need not add up to zero, and the script can then die with an exception. If more nodes are asked for than there are it never returns.", "quantifier": "all random streams, all parameters, all iteration bounds", "why_tests_cant": "ranges over every random stream; a seeded run shows one", "anchors": ["src/gimpy/examples/simplex_test.py: generate_graph"]}
{"id": "C66", "title": "repr(graph), get_node and print_flow show the graph as it is", "statement": "repr(G) does not change the graph and has one line 'name -> [neighbors]' for every node, in the order of the nodes; for graphs whose names are ints or identifiers, equal texts mean the same nodes and the same neighbor lists in the same order. The text does not show whether the graph is directed, and names such as 1 and '1' look alike. get_node(n) returns None exactly for unknown names, otherwise the node with all its attributes. print_flow() prints one line with arc, flow and capacity for every arc whose flow is not 0 (negative flows included, although only positive ones are announced), in the order of the arcs, leaves the graph unchanged, and raises KeyError at the first arc without 'flow'.", "quantifier": "all graphs reachable through the API; all pairs of graphs with plain names (injectivity)", "why_tests_cant": "That two different graphs never have the same text is a statement about all pairs of graphs.", "anchors": ["src/gimpy/graph.py:Graph.__repr__", "src/gimpy/graph.py:Node.__repr__", "src/gimpy/graph.py:Graph.get_node", "src/gimpy/graph.py:Graph.print_flow"]}
{"id": "C67", "title": "Default queues shared between calls", "statement": "The default value of q in minimum_spanning_tree_prim, Tree.traverse and BinaryTree.traverse is one queue object shared by all calls on all graphs or trees. A call that returns leaves it empty, so in any history of valid calls of minimum_spanning_tree_prim on any graphs every call returns what it would return with a queue of its own. An exception leaves the nodes that were waiting in it, and a later call on any graph in which such a node cannot be reached from the source never returns normally. traverse leaves its stack empty also when it raises, on every Tree and on every BinaryTree whose recorded children are nodes; after add_left_child and add_right_child have raised TypeError (parent without level) this is false, and a traversal of another tree visits a node twice.", "quantifier": "all histories of calls, all graphs and trees, all sources and display arguments, all priority queues satisfying the laws", "why_tests_cant": "Speaks about arbitrary histories of calls on different objects, including calls that raise half way.", "anchors": ["src/gimpy/graph.py:Graph.minimum_spanning_tree_prim", "src/gimpy/tree.py:Tree.traverse", "src/gimpy/tree.py:BinaryTree.traverse"]}
{"id": "C68", "title": "The objects that the graph hands out", "statement": "get_neighbors, get_out_neighbors and get_in_neighbors return the list objects of the graph itself; get_node and add_node return its Node objects. No object belongs to two nodes or to two roles, so every call changes exactly what it would change if the graph held its contents by value. As long as the node is not deleted, every later call returns the same object, the list holds the neighbours of now, and reading or writing through the Node object is get_node_attr and set_node_attr. After del_node no call changes or returns the objects of the deleted node again, also when a node of the same name is added. Because the list is live, a loop over get_neighbors(n) that deletes the edge to each neighbour deletes every second edge only; and a caller that appends to the list makes neighbours and edges disagree.", "quantifier": "all histories of calls of the core API, interleaved with set_attr on Node objects, on directed and undirected graphs; all nodes and neighbour lists", "why_tests_cant": "Aliasing shows only when an object is kept across an arbitrary sequence of later calls.", "anchors": ["src/gimpy/graph.py:Graph.get_neighbors", "src/gimpy/graph.py:Graph.get_in_neighbors", "src/gimpy/graph.py:Graph.get_out_neighbors", "src/gimpy/graph.py:Graph.get_node", "src/gimpy/graph.py:Graph.add_node", "src/gimpy/graph.py:Graph.del_node", "src/gimpy/graph.py:Graph.del_edge"]}
{"id": "C69", "title": "Calls of search outside its preconditions", "statement": "search with an unknown algo changes nothing and returns None. A source that is not a node raises AttributeError: DFS, BFS and UnweightedSPT have changed nothing by then, Dijkstra and Prim have reset label, distance and color of every node and the color of every edge. Dijkstra and Prim with a q that is not a priority queue raise TypeError, with the source left red and everything else reset. When source and destination are the same node the result is the path of that one node, whatever q holds and whatever the costs are, and only the source's own attributes differ from the reset. If q holds an item that cannot be reached from the source, then search without a destination, or with an unreachable one, never returns normally.", "quantifier": "all graphs, sources, destinations, component numbers, directions, algorithms and queues satisfying the container laws, whatever they hold", "why_tests_cant": "Ranges over all graphs and all contents of the queue passed in; the state after the exception is part of the claim.", "anchors": ["src/gimpy/graph.py:Graph.search", "src/gimpy/graph.py:Graph.process_edge_search"]}
{"id": "C70", "title": "Sessions: the methods can be called one after the other, and agree", "statement": "Calling the algorithms of a graph one after the other, in any order, with any arguments and whether a call returns, raises or is cut short, never changes the problem: nodes, edges, neighbours, type and every attribute keep their values, apart from the marks the algorithms keep their notes in (label, color, distance, flow, ...), the display mode, and arcs without a capacity, which may get the default 10000. So methods for one problem agree whatever ran before: max_flow and max_flow_preflowpush give flows of the same value, the maximum; Dijkstra's search, floyd_warshall and fifo_label_correcting (Python 2) give the same, least, distances; Kruskal's and Prim's methods give trees of the same, least, cost; cycle canceling and network simplex give the same answer and, if it is True, flows of the same, least, cost. The methods that add and delete two nodes on the way (find_feasible_flow, cycle_canceling, network_simplex, min_cost_flow) leave the problem as it was too, in any sequence with the others, and cycle canceling or network simplex after any such sequence still finds a least cost flow of the network as first stated, or rightly reports that there is none, and max_flow a maximum flow, on directed graphs with whole demands and capacities, no pair of opposite arcs, no nodes called s or t, and at least one supply and one demand.", "quantifier": "all graphs, all finite sequences of calls of search, bfs, label_components, get_diameter, dfs, hamiltonian, acyclic_shortest_path, label_strong_component, kruskal, minimum_spanning_tree_prim, fifo_label_correcting, floyd_warshall and its path method, get_negative_cycle, page_rank, get_degrees, max_flow, max_flow_preflowpush, create_residual_graph, find_cycle_capacity, augment_cycle, the canceling phase of cycle_canceling, every simplex_* method, get_simplex_solution_graph, one iteration of network_simplex, and display mode changes, with all arguments; for the agreement, all graphs meeting the methods' own preconditions, a session of its own before each method", "why_tests_cant": "Ranges over all histories of calls, including the states exceptions leave behind, and compares the results of different methods on all inputs.", "anchors": ["src/gimpy/graph.py:Graph.search", "src/gimpy/graph.py:Graph.max_flow", "src/gimpy/graph.py:Graph.max_flow_preflowpush", "src/gimpy/graph.py:Graph.floyd_warshall", "src/gimpy/graph.py:Graph.fifo_label_correcting", "src/gimpy/graph.py:Graph.minimum_spanning_tree_kruskal", "src/gimpy/graph.py:Graph.cycle_canceling", "src/gimpy/graph.py:Graph.network_simplex", "src/gimpy/graph.py:Graph.dfs"]}
{"id": "C71", "title": "simplex_search lays a tree with depths and a preorder thread over what it reaches", "statement": "simplex_search(source, component_nr) on a directed graph with integer names returns predecessors exactly for the nodes that can be reached from source along arcs in either direction, sets component to component_nr on those and to None on the others, and sets on the reached nodes: pred, a neighbour one level nearer to the source (None for the source), which makes a tree rooted at the source; depth, 0 for the source and one more than that of the predecessor elsewhere; and thread, which runs through all reached nodes and back to the source in an order where every subtree is one block starting at its root, so that following the thread from a node while the depth is larger gives its descendants. Nothing else changes. If the source is no node, or the graph is undirected, it raises AttributeError after resetting the components.", "quantifier": "all directed graphs with integer names (for the errors all graphs), all sources and component numbers", "why_tests_cant": "Ranges over all graphs; the preorder of the thread depends on the order in which the stack is filled and emptied throughout the search.", "anchors": ["src/gimpy/graph.py:Graph.simplex_search"]}
{"id": "C72", "title": "The parts of the network simplex method keep a spanning tree solution", "statement": "Let a feasible integer flow be stored on a connected directed graph with integer names and no pair of opposite arcs. get_simplex_solution_graph() has all nodes and exactly the arcs with flow strictly between 0 and the capacity. simplex_find_tree() returns, and leaves a feasible flow and a spanning tree of arcs such that every arc outside the tree is at a bound; nodes, arcs, costs and capacities are those of before. After simplex_search on such a tree, simplex_compute_potentials gives the root potential 0 and every arc of the tree reduced cost 0 and changes nothing else; simplex_identify_cycle(t, k, l) returns the path of the tree from l to k; and for any arc (k, l) outside the tree, simplex_determine_leaving_arc followed by simplex_remove_arc ends in a spanning tree solution again, in which (k, l) has replaced the leaving arc, the problem is unchanged, and the total cost has changed by the amount pushed times the reduced cost of (k, l), with the sign given by the bound at which (k, l) was. In both cases the arcs of the tree carry the flow, capacity, cost and label of the arcs of the graph, and the label reads flow/capacity/cost.", "quantifier": "all such graphs, flows and demands, all trees, roots and entering arcs", "why_tests_cant": "Ranges over all graphs, flows and trees; each step relies on what the previous ones left behind, and feasibility has to survive every pivot.", "anchors": ["src/gimpy/graph.py:Graph.get_simplex_solution_graph", "src/gimpy/graph.py:Graph.simplex_find_tree", "src/gimpy/graph.py:Graph.simplex_compute_potentials", "src/gimpy/graph.py:Graph.simplex_identify_cycle", "src/gimpy/graph.py:Graph.simplex_determine_leaving_arc", "src/gimpy/graph.py:Graph.simplex_remove_arc"]}
{"id": "C73", "title": "The remaining helpers of the network simplex method do what their names say", "statement": "simplex_redraw(display, root) on a connected tree with integer flows, capacities and costs returns a new graph with the same nodes and arcs, the pred, thread and depth attributes and the flow, capacity and cost of the tree, every arc labelled flow/capacity/cost, and leaves the tree alone. simplex_mark_st_arcs(t) succeeds exactly when every arc outside t has flow 0 or is at its capacity; then the arcs of t are blue and all others black (the docstring announces five colours); otherwise it raises an Exception; only colours change. simplex_find_cycle() returns None exactly when the graph, read without directions, has no cycle, and otherwise a closed walk along its arcs that takes no step twice and passes its closing arc in one direction only; only component attributes change. The list need not be a simple cycle: it runs through the node from which the search started. simplex_augment_cycle(l) returns the least amount that can be pushed on a step of the closed walk l. simplex_connect(r), for a forest r of arcs of a connected graph, adds one arc of the graph that joins two components of r and returns True, or changes no arc and returns False when r spans the graph. On empty input simplex_find_cycle, simplex_augment_cycle and simplex_connect raise IndexError.", "quantifier": "all directed graphs without opposite arcs (integer names where the code converts them), all trees and forests in them, all closed walks", "why_tests_cant": "Ranges over all graphs, trees and walks; whether a cycle is missed, or an arc of the tree is not redrawn, depends on the order in which the search meets the arcs.", "anchors": ["src/gimpy/graph.py:Graph.simplex_redraw", "src/gimpy/graph.py:Graph.simplex_mark_st_arcs", "src/gimpy/graph.py:Graph.simplex_find_cycle", "src/gimpy/graph.py:Graph.simplex_augment_cycle", "src/gimpy/graph.py:Graph.simplex_connect"]}
{"id": "C74", "title": "Constructors: type, attributes and defaults of graphs and trees", "statement": "Graph(**attrs) has no nodes, edges or clusters, is undirected unless type= says otherwise, and carries the given attributes; display defaults to 'off' and layout to 'fdp', and cluster_count is always 0. Tree and BinaryTree have no root, are directed whatever type= says, and default to the layout 'dot'. Adding, deleting or changing nodes and edges, by calls that return or raise, never changes the type or these attributes.", "quantifier": "all keyword arguments with all values, all histories of add_node, del_node, add_edge, del_edge, set_node_attr, set_edge_attr (graphs) and add_root, add_child (trees), including raising calls", "why_tests_cant": "Ranges over all keyword arguments and all histories of calls, including the states exceptions leave behind.", "anchors": ["src/gimpy/graph.py:Graph.__init__", "src/gimpy/tree.py:Tree.__init__", "src/gimpy/tree.py:BinaryTree.__init__"]}
