{"id": "C01", "title": "Degree messages are the exact min-sum messages of 'exactly one edge out / exactly one edge in'", "statement": "One degree-constraint step on a directed graph writes, for every edge and for the node it leaves (resp. enters), exactly (best total of the other incoming messages over selections where this edge is the one chosen edge out of (resp. into) that node) minus (best total over selections where it is not chosen and exactly one other is); every other entry of the output matrix is left as it was, and no out-of-range element is touched provided each node has at least one edge out and one edge in.", "quantifier": "every number of nodes, every edge list without self-loops in which every node has an outgoing and an incoming edge, every matrix of incoming messages", "why_tests_cant": "The claim compares the output with an optimum over exponentially many selections for all sizes and real-valued inputs; tests compare a few random matrices with another implementation.", "anchors": ["include/impalib/update_degree_constraint.hpp: DegreeConstraint::degree_constraint_to_edge_ec_update"]}
{"id": "C02", "title": "Subtour-elimination messages are the exact min-sum messages of 'at least one edge leaves the set'", "statement": "One subtour-elimination step writes, for every constraint and every edge in its cut, exactly (best total of the other incoming messages when the edge is selected) minus (best total when it is not selected and at least one other cut edge is); entries of edges outside the cut are unchanged.", "quantifier": "every list of non-empty, duplicate-free cuts and every matrix of incoming messages", "why_tests_cant": "Optimum over all subsets of the cut, for all cut sizes and real inputs.", "anchors": ["include/impalib/subtour_elimination_constraint.hpp: SubtourEliminationConstraint::subtour_constraints_to_edge_ec_update"]}
{"id": "C03", "title": "Project messages are the exact min-sum messages of 'at most one team per project'", "statement": "One project-inequality step writes for each (project, team) exactly the difference between the best total of the other teams' messages when this team is assigned (so nobody else is) and the best total when it is not (at most one other team is).", "quantifier": "every number of projects and teams, every matrix of incoming messages", "why_tests_cant": "Optimum over all assignments for all sizes and real inputs.", "anchors": ["include/impalib/project_inequality_constraint.hpp: InequalityConstraint::project_inequality_constraint_update"]}
{"id": "C04", "title": "Team-to-project coupling messages (towards projects) are exact", "statement": "One coupling step writes for each (project, team) exactly the min-sum message of the constraint 'an unformed team is matched to no project, a formed team is matched to exactly one project', and the message forwarded to the project side is that value plus the reward of the pair.", "quantifier": "every number of projects and teams, all team messages, project messages and rewards", "why_tests_cant": "Optimum over all assignments for all sizes and real inputs.", "anchors": ["include/impalib/update_or_inequality_constraint.hpp: OrInequalityConstraint::oric_to_project_eq_constraint_update"]}
{"id": "C05", "title": "Team-to-project coupling messages (towards teams) are exact", "statement": "The message sent back to each team is the min-sum message of the same constraint towards the team: the smallest project-side message of that team.", "quantifier": "every number of projects and teams, all project messages", "why_tests_cant": "Only inputs above a hard-coded sentinel (1000000) break it; random tests never sample there.", "anchors": ["include/impalib/update_or_inequality_constraint.hpp: OrInequalityConstraint::oric_to_team_update"]}
{"id": "C06", "title": "Knapsack messages are the exact min-sum messages of the department capacity", "statement": "For every department, the forward-backward pass produces for each participating team exactly (best total of the other teams' messages over sets of teams that, with this team, fit in the department capacity) minus (best total over sets of other teams that fit); teams with zero weight in the department get 0; no out-of-range element is touched as long as each participating team fits alone and the department has at least one participating team.", "quantifier": "every number of teams, all capacities, all weight vectors with every non-zero weight at most the capacity, all incoming messages, and the sorted list of participating teams", "why_tests_cant": "Optimum over exponentially many team sets for all capacities, weights and gaps in the participation list; special cases for team 0 and for gaps are only sampled by tests.", "anchors": ["include/impalib/knapsack.hpp: Knapsack::forward, Knapsack::backward, Knapsack::extrinsic_output_department_lhs"]}
{"id": "C07", "title": "Team messages to a department are the sum of everything else known about the team", "statement": "The message a team sends to a department it participates in equals its reward plus the coupling message plus the messages from all its other departments; entries of teams that do not participate are unchanged.", "quantifier": "every number of departments and teams, all participation lists, all messages", "why_tests_cant": "Depends on how many departments a team spans; generated tests always use exactly the team types of the data generator (at most two departments).", "anchors": ["include/impalib/knapsack.hpp: Knapsack::team_to_knapsack_update"]}
{"id": "C08", "title": "Clause messages are the exact min-sum messages of 'at least one literal is true'", "statement": "For every clause over distinct variables, the message to each variable is exactly the min-sum message of the clause (with signs of the literals taken into account), entries of variables not in the clause are 0.", "quantifier": "every number of clauses and variables, every clause length k>=1, all literal signs, all incoming messages", "why_tests_cant": "Optimum over 2^k assignments for all k and real inputs.", "anchors": ["include/impalib/update_ksat_constraint.hpp: KsatConstraint::ksat_constraint_to_variable_ec_update"]}
{"id": "C09", "title": "Variable messages to a clause exclude that clause", "statement": "The message from a variable to each of its clauses equals its own metric plus the messages from all its other clauses; pairs that are not connected get 0.", "quantifier": "every formula in which no clause repeats a variable, all messages and metrics", "why_tests_cant": "Quantifies over all bipartite structures and real messages.", "anchors": ["include/impalib/update_equality_constraint.hpp: EqualityConstraint::variable_ec_to_ksat_constraint_update"]}
{"id": "C10", "title": "Edge messages to a degree constraint exclude that constraint", "statement": "In the relaxed and the augmented TSP model the message from an edge to the constraint of one of its endpoints equals the edge cost plus the message from the other endpoint (plus all subtour messages of that edge in the augmented model).", "quantifier": "every edge list without self-loops, all messages and costs, any number of subtour constraints", "why_tests_cant": "Quantifies over all graphs, sizes and real messages.", "anchors": ["include/impalib/update_equality_constraint.hpp: EqualityConstraint::edge_ec_to_degree_constraint_relaxed_graph_update, edge_ec_to_degree_constraint_augmented_graph_update, flip_matrix"]}
{"id": "C11", "title": "Edge messages to a subtour constraint exclude that constraint", "statement": "The message from a cut edge to a subtour constraint equals the edge cost plus both endpoint messages plus the messages of all other subtour constraints; other entries are 0; the special code path for one constraint agrees with the general one.", "quantifier": "every edge list, any number of constraints, all messages", "why_tests_cant": "Quantifies over all lists of cuts and real messages.", "anchors": ["include/impalib/update_equality_constraint.hpp: EqualityConstraint::edge_ec_to_subtour_constraints_update"]}
{"id": "C12", "title": "Filtering is an exponential blend and stays within the range of past messages", "statement": "With filtering on and alpha<>0 the filtered message after any number of iterations equals (1-alpha) * sum of alpha^(age) * raw message over the whole history; with filtering off or alpha=0 it equals the raw message; for 0<=alpha<=1 it never leaves the interval spanned by 0 and the raw messages seen so far.", "quantifier": "every history length, every sequence of raw messages, every alpha", "why_tests_cant": "A statement about all histories; tests run one step.", "anchors": ["include/impalib/knapsack.hpp: Knapsack::process_extrinsic_output_department", "include/impalib/update_degree_constraint.hpp: DegreeConstraint::process_filtering", "include/impalib/subtour_elimination_constraint.hpp: SubtourEliminationConstraint::process_filtering", "include/impalib/update_ksat_constraint.hpp: KsatConstraint::process_filtering"]}
{"id": "C13", "title": "TSP message passing never produces infinities or NaN and never reads out of range", "statement": "For a complete directed graph on at least 3 nodes and finite costs, every message and every output stays finite for any number of iterations, and no out-of-range element is touched, in the relaxed model and in the augmented model with any set of subtour cuts that the library itself adds.", "quantifier": "every number of nodes >= 3, all finite costs, any number of iterations, any augmentation history, filtering on or off", "why_tests_cant": "Infinity is used internally; whether inf-inf can occur after many iterations depends on all histories.", "anchors": ["include/impalib/graphical_model.hpp: GraphicalModelTsp::iterate_relaxed_graph, iterate_augmented_graph"]}
{"id": "C14", "title": "KC-MWM message passing never produces infinities or NaN and never reads out of range", "statement": "If every department has a participating team, each participating team fits alone and no team spans more than two departments, then every message and both output arrays stay finite for any number of iterations and no out-of-range element is touched.", "quantifier": "every problem size satisfying the stated shape, all finite rewards, any number of iterations, filtering on or off", "why_tests_cant": "Same as above: depends on all histories.", "anchors": ["include/impalib/graphical_model.hpp: GraphicalModelKcMwm::iterate"]}
{"id": "C15", "title": "K-SAT message passing never produces infinities or NaN and never reads out of range", "statement": "If every clause has k>=2 distinct variables and the two adjacency views are in range, every message and the output stay finite for any number of iterations.", "quantifier": "every formula of that shape, all finite metrics, any number of iterations, filtering on or off", "why_tests_cant": "Same as above.", "anchors": ["include/impalib/graphical_model.hpp: GraphicalModelKsat::iterate"]}
{"id": "C16", "title": "Loops reported are real directed cycles", "statement": "Every loop reported for a set of selected edges is a list of pairwise distinct nodes in which each consecutive pair, and the pair (last, first), is a selected edge.", "quantifier": "every set of selected edges, every iteration order of the hash map", "why_tests_cant": "All graphs and all hash orders.", "anchors": ["include/impalib/graphical_model.hpp: GraphicalModelTsp::get_closed_loops, find_closed_loop, isSubsequence"]}
{"id": "C17", "title": "A loop is reported exactly when the selected edges contain a directed cycle", "statement": "If the selected edges contain a directed cycle at least one loop is reported, and if they contain none, none is reported; the search always terminates.", "quantifier": "every set of selected edges, every iteration order of the hash map", "why_tests_cant": "Completeness of a depth-first search over all graphs.", "anchors": ["include/impalib/graphical_model.hpp: GraphicalModelTsp::get_closed_loops, find_closed_loop"]}
{"id": "C18", "title": "A reported tour is a Hamiltonian cycle of selected edges", "statement": "When the TSP solver reports a tour, it consists of all n nodes exactly once followed by the first node again, and every consecutive pair is a selected edge of the graph.", "quantifier": "every number of nodes, every message state, every hash order, relaxed and augmented runs", "why_tests_cant": "All inputs; the loop filter in between can drop loops.", "anchors": ["include/impalib/graphical_model.hpp: GraphicalModelTsp::subtour_elimination_constraints_analysis"]}
{"id": "C19", "title": "Reported TSP cost is the cost of the selected edges, and of the tour when a tour is reported", "statement": "The reported cost equals the sum of the costs of the edges whose intrinsic value is not above the threshold; when a tour is reported this is the cost of that tour.", "quantifier": "every message state and cost vector", "why_tests_cant": "The second half fails only when an extra chord edge is selected next to a tour, which tests do not produce.", "anchors": ["include/impalib/graphical_model.hpp: GraphicalModelTsp::hard_decision_analysis, subtour_elimination_constraints_analysis"]}
{"id": "C20", "title": "Every added subtour constraint is the set of edges leaving the loop, is non-empty and is added once", "statement": "After each analysis, every constraint in the list is exactly the set of edge indices leaving some reported loop; constraints are non-empty, pairwise different, and never removed.", "quantifier": "every history of analyses on every graph", "why_tests_cant": "History property.", "anchors": ["include/impalib/graphical_model.hpp: GraphicalModelTsp::subtour_elimination_constraints_analysis"]}
{"id": "C21", "title": "No added subtour constraint excludes a Hamiltonian tour", "statement": "Every subtour constraint ever added is satisfied by every Hamiltonian cycle of the complete graph: at least one edge of the cycle is in the constraint's edge set; hence augmentation never removes a valid tour from the model.", "quantifier": "every history of analyses, every Hamiltonian cycle", "why_tests_cant": "Quantifies over all tours.", "anchors": ["include/impalib/graphical_model.hpp: GraphicalModelTsp::subtour_elimination_constraints_analysis"]}
{"id": "C22", "title": "Every reported proper subtour violates the constraint added for it", "statement": "If the only selected edges that touch a reported loop are its own edges, then no selected edge belongs to the constraint added for that loop, so the same edge selection can never again satisfy all constraints.", "quantifier": "every selection, every loop", "why_tests_cant": "All graphs.", "anchors": ["include/impalib/graphical_model.hpp: GraphicalModelTsp::subtour_elimination_constraints_analysis"]}
{"id": "C23", "title": "The augmentation loop respects its limit", "statement": "With a positive maximum the number of augmentation rounds never exceeds it and the loop terminates.", "quantifier": "every run, every maximum", "why_tests_cant": "Termination and bound over all runs; the equality test makes the non-positive case unbounded.", "anchors": ["include/impalib/graphical_model.hpp: GraphicalModelTsp::perform_augmentation"]}
{"id": "C24", "title": "Failure flags are raised only after more than maxCount consecutive events", "statement": "The no-improvement flag implies that the last maxCount+1 comparisons of consecutive selections were equal, the oscillation flag that the last maxCount+1 selections alternated with period two; after a flag is raised no further round is run.", "quantifier": "every history of edge selections", "why_tests_cant": "History property.", "anchors": ["include/impalib/graphical_model.hpp: GraphicalModelTsp::iterate_augmented_graph"]}
{"id": "C25", "title": "Output buffers passed to the C++ library are large enough", "statement": "The arrays allocated by the Python front end for the tour, the selected edges, the subtour paths and their sizes are at least as long as what the C++ side writes.", "quantifier": "every number of nodes and every result", "why_tests_cant": "Only particular sizes/selections overflow; an overflow need not crash a test.", "anchors": ["src/impa/Impa.py: GraphicalModelTsp.initialize, process_inputs_ctypes", "include/impalib/graphical_model.hpp: GraphicalModelTsp::process_ouputs"]}
{"id": "C26", "title": "Results survive the flat-array hand-over", "statement": "Selected edges, tour and subtour paths read back by Python equal the ones computed by the C++ side, and the matrices sent by Python are read back unchanged by the C++ side.", "quantifier": "every result and every input whose flat size fits the buffer", "why_tests_cant": "Round trip for all sizes; zero-padding is used as a terminator, so some values are ambiguous.", "anchors": ["src/impa/Impa.py: GraphicalModelTsp.process_outputs_ctypes, GraphicalModelKsat.process_inputs_ctypes, ImpaKcMwm.process_inputs_ctypes", "include/impalib/input_output.hpp: process_inputs", "include/impalib/graphical_model.hpp: GraphicalModelTsp::process_ouputs"]}
{"id": "C27", "title": "TSP post-processing always returns a Hamiltonian tour", "statement": "When post-processing runs and returns, the resulting tour visits every node exactly once, is closed, and its reported cost is the sum of the costs of its edges.", "quantifier": "every set of selected edges and subtour paths", "why_tests_cant": "All graphs; the code has many cases for cleaning and joining paths.", "anchors": ["src/impa/Impa.py: GraphicalModelTsp.run_post_processing_improved, paths_cleaning, get_paths, add_missing_nodes"]}
{"id": "C28", "title": "k-opt keeps the tour valid and never makes it worse", "statement": "Each k-opt pass returns a tour that is a permutation of the input tour and whose cost is not larger; for k outside 2..n-2 it raises an error.", "quantifier": "every tour, every cost matrix, every k", "why_tests_cant": "All tours and costs; duplicates among the random indices.", "anchors": ["src/impa/Impa.py: GraphicalModelTsp.perform_k_opt, generate_k_opt_paths"]}
{"id": "C29", "title": "Missing nodes are inserted exactly once", "statement": "Adding missing nodes to a path visits each missing node exactly once and keeps the given part in order.", "quantifier": "every partial path and every cost matrix", "why_tests_cant": "All sizes and costs.", "anchors": ["src/impa/Impa.py: GraphicalModelTsp.add_missing_nodes"]}
{"id": "C30", "title": "Hard decisions are threshold decisions", "statement": "An edge/variable/pair is selected exactly when its intrinsic value is not above the threshold, identically in the C++ and the Python code.", "quantifier": "every vector of values and every threshold, including equality and NaN", "why_tests_cant": "Boundary values are measure-zero for random tests.", "anchors": ["src/impa/Impa.py: GraphicalModelKsat.hard_decision_analysis, ImpaKcMwm.pre_analysis, ImpaKcMwm.check_match", "include/impalib/graphical_model.hpp: GraphicalModelTsp::hard_decision_analysis"]}
{"id": "C31", "title": "Generated team data is aligned across departments", "statement": "After team generation, every department has one weight per generated team, the reward list, the type list and the location lists agree on the number of teams, and every non-zero weight is at most the department capacity.", "quantifier": "every list of department capacities and team types", "why_tests_cant": "Fails only for types with no admissible combination.", "anchors": ["src/impa/Impa.py: ImpaKcMwm.team_reward_generation, initialize"]}
{"id": "C32", "title": "Capacity repair ends with every department within capacity", "statement": "Department post-processing terminates, never adds a team, and on return the total weight of the remaining teams in every department is at most its capacity.", "quantifier": "every selection of teams, all intrinsic values, all capacities", "why_tests_cant": "All selections; removal candidates are matched by value, ties can remove the wrong team.", "anchors": ["src/impa/Impa.py: ImpaKcMwm.apply_post_processing_departments_brute"]}
{"id": "C33", "title": "Team-reuse repair ends with every team matched at most once", "statement": "Team post-processing terminates, never adds an assignment, and on return each project/team conflict it resolves is gone.", "quantifier": "every selection and all intrinsic values", "why_tests_cant": "All selections.", "anchors": ["src/impa/Impa.py: ImpaKcMwm.apply_post_processing_teams_brute"]}
{"id": "C34", "title": "A formula is reported satisfied exactly when every clause has a true literal", "statement": "The summary lists a clause as unsatisfied exactly when none of its literals is true under the current decisions; the 'formula satisfied' flag is set exactly when the list is empty.", "quantifier": "every formula, every decision vector", "why_tests_cant": "All formulas and assignments.", "anchors": ["src/impa/Impa.py: GraphicalModelKsat.get_summary"]}
{"id": "C35", "title": "Generated K-SAT instances are well formed and satisfiable", "statement": "A generated instance has the requested number of clauses, each with k distinct variables and no two with the same variable set; the clause view and the variable view describe the same graph; the planted assignment satisfies every clause.", "quantifier": "every outcome of the random generator", "why_tests_cant": "All random outcomes.", "anchors": ["src/impa/Impa.py: GraphicalModelKsat.create_model_structure"]}
{"id": "C36", "title": "K-SAT post-processing never increases the number of unsatisfied clauses", "statement": "After post-processing, the number of unsatisfied clauses is at most the number before it; a formula that was satisfied stays satisfied.", "quantifier": "every formula, decision vector and intrinsic vector", "why_tests_cant": "The second phase compares against a stale count; a counterexample needs a specific sequence of flips.", "anchors": ["src/impa/Impa.py: GraphicalModelKsat.run_post_processing"]}
{"id": "C37", "title": "K-SAT post-processing reports the assignment it ends with", "statement": "At the end of post-processing the unsatisfied list and the satisfied flag describe the decision vector that is returned.", "quantifier": "every formula, decision vector and intrinsic vector", "why_tests_cant": "Trial moves overwrite the same fields.", "anchors": ["src/impa/Impa.py: GraphicalModelKsat.run_post_processing, get_summary"]}
{"id": "C38", "title": "Arguments reach the C++ entry points they are meant for", "statement": "Every value passed by the Python front end to a C++ entry point arrives in the parameter of that meaning.", "quantifier": "all values of all parameters, under the x86-64 System V calling convention", "why_tests_cant": "The declared orders differ for one entry point and work only because floating-point and integer arguments travel in different registers; a platform fact tests on one machine cannot show.", "anchors": ["src/impa/cFunctionAPI.py: argtypes of WrapperTsp/WrapperKcMwm/WrapperKsat", "src/impa/Wrapper.cpp"]}
{"id": "C39", "title": "The pure Python implementation and the C++ library compute the same messages", "statement": "For each message update the pure Python reference and the C++ implementation return equal matrices.", "quantifier": "every well-formed input in exact arithmetic", "why_tests_cant": "This is what the repository's unit tests sample; equality for all inputs needs proof.", "anchors": ["test/python_tsp/src/update_degree_constraint.py, subtour_elimination_constraint.py, update_equality_constraint.py", "test/python_kc_mwm/src/knapsack.py, project_inequality_constraint.py, update_or_inequality_constraint.py, update_equality_constraint.py", "test/python_ksat/src/update_ksat_constraint.py, update_equality_constraint.py"]}
{"id": "C40", "title": "Re-running the solvers does not depend on hash order", "statement": "The list of loops reported, and whether a tour is reported, does not depend on the iteration order of the hash map holding the graph.", "quantifier": "every graph and every two iteration orders", "why_tests_cant": "One standard library exhibits one order.", "anchors": ["include/impalib/graphical_model.hpp: GraphicalModelTsp::get_closed_loops"]}
{"id": "C41", "title": "The similarity score is a fraction", "statement": "The reported similarity between decisions and the planted assignment lies between 0 and 1 and is 1 exactly when they agree on all used variables.", "quantifier": "every pair of assignments", "why_tests_cant": "All inputs.", "anchors": ["src/impa/Impa.py: GraphicalModelKsat.calculate_similarity"]}
{"id": "C42", "title": "Output matrices are laid out row by row", "statement": "The flat KC-MWM intrinsic output holds the value of (project p, team t) at position p*T+t and every position is written; the extrinsic team output is the sum of all messages into the team except its reward.", "quantifier": "every size", "why_tests_cant": "All sizes.", "anchors": ["include/impalib/input_output.hpp: OutputsKcMwm::intrinsic_out_mwm_update, extrinsic_output_team_update"]}
{"id": "C43", "title": "Team and project messages to the coupling constraint", "statement": "The message of a team to its coupling constraint is its reward plus the messages of all departments; the message of a (project, team) pair to it is the project-constraint message plus the reward of the pair.", "quantifier": "every number of departments, teams and projects, all messages and rewards", "why_tests_cant": "All sizes and real inputs.", "anchors": ["include/impalib/update_equality_constraint.hpp: EqualityConstraint::team_eq_constraint_to_oric_update, project_eq_constraint_to_oric_update"]}
{"id": "C44", "title": "A solver call always comes back to Python", "statement": "For a complete graph with positive costs, a TSP solver call returns to its caller; it never terminates the host process.", "quantifier": "every number of nodes >= 3, all positive costs, all options", "why_tests_cant": "The library calls exit(0) when a round selects no edge; whether that is reachable depends on the whole run.", "anchors": ["include/impalib/graphical_model.hpp: GraphicalModelTsp::perform_augmentation", "src/impa/Wrapper.cpp: WrapperTsp"]}
{"id": "C45", "title": "The reported number of added constraints is the number of constraints in the model", "statement": "The number of added subtour constraints reported by a TSP call equals the number of distinct subtour constraints the run found.", "quantifier": "every run", "why_tests_cant": "The count is the number of message rows, which is extended at a different point than the constraint list.", "anchors": ["include/impalib/graphical_model.hpp: GraphicalModelTsp::perform_augmentation, process_ouputs"]}
{"id": "C46", "title": "Every finite cost matrix with a zero diagonal is handed over completely", "statement": "For every cost matrix with a zero diagonal the edges the C++ side works with are exactly the ordered pairs of distinct nodes, with their costs, and the hand-over reads no element out of range.", "quantifier": "every number of nodes and every non-negative cost matrix", "why_tests_cant": "Random cost matrices practically never contain a zero off the diagonal.", "anchors": ["src/impa/Impa.py: GraphicalModelTsp.create_cost_matrix, initialize, process_inputs_ctypes", "include/impalib/input_output.hpp: InputsTsp::process_inputs"]}
{"id": "C47", "title": "A complete K-SAT call succeeds and reports the truth about its result", "statement": "For every random instance, finite metrics, threshold, number of iterations, filtering and post-processing options, the call returns without an out-of-range access; the intrinsic values are the solver output plus the metric of used variables; the unsatisfied list and the satisfied flag are those of the final decisions.", "quantifier": "every outcome of the generator, every finite metric vector, all options", "why_tests_cant": "Tests check a few fixed instances and never the consistency between the arrays crossing the language boundary and the final report.", "anchors": ["src/impa/Impa.py: GraphicalModelKsat.initialize, run_impa", "src/impa/Wrapper.cpp: WrapperKsat"]}
{"id": "C48", "title": "The first K-SAT iteration starts from the metrics", "statement": "The initial message of a variable to each clause that contains it is the metric of that variable; all other entries are 0.", "quantifier": "every formula and metric vector", "why_tests_cant": "A wrong starting point only changes convergence, which no test measures.", "anchors": ["src/impa/Impa.py: GraphicalModelKsat.initialize"]}
{"id": "C49", "title": "A K-SAT call computes the min-sum schedule of its formula", "statement": "For every formula, start messages, metrics, filtering and number of iterations, the returned values are those of the min-sum schedule: in every iteration clause messages are the min-sum messages of 'the clause is satisfied' for the current variable messages, filtered over the whole history, and the next variable message is the metric plus the messages of the other clauses; the result is the sum of the last filtered clause messages.", "quantifier": "every well-formed formula, all finite inputs, any number of iterations, filtering on or off with any factor", "why_tests_cant": "Tests compare a few small runs against a Python copy of the same code; agreement over all iterations and formulas, and with the definition of min-sum, is out of reach.", "anchors": ["include/impalib/graphical_model.hpp: GraphicalModelKsat::iterate", "include/impalib/update_ksat_constraint.hpp: KsatConstraint", "src/impa/Wrapper.cpp: WrapperKsat"]}
{"id": "C50", "title": "A KC-MWM call computes the min-sum schedule of its model", "statement": "For every instance in which a team takes part in at most two departments, the returned values are those of the stated schedule of min-sum messages between departments, teams, coupling constraints, team-project pairs and project constraints, in the stated order within each iteration, with filtering over the whole history.", "quantifier": "all shapes, weights, capacities, finite rewards, any number of iterations, filtering on or off", "why_tests_cant": "An update made from a stale value, or in the wrong order, still converges on small examples.", "anchors": ["include/impalib/graphical_model.hpp: GraphicalModelKcMwm::iterate", "src/impa/Wrapper.cpp: WrapperKcMwm"]}
{"id": "C51", "title": "Every stage of a TSP call computes the min-sum schedule of its current model", "statement": "The first stage runs the min-sum schedule of the in- and out-degree constraints started from the edge costs; every later round runs the schedule of degree and subtour constraints found so far, started from the costs (reset) or from the messages of the previous round, with the subtour messages kept across rounds and filtering restarted; reported values are the sums of the last messages.", "quantifier": "every complete graph with at least three nodes, all finite costs and options, any number of iterations and rounds", "why_tests_cant": "Messages carried over between rounds are never compared with a reference; a lost or shifted row only changes convergence.", "anchors": ["include/impalib/graphical_model.hpp: GraphicalModelTsp::iterate_relaxed_graph, iterate_augmented_graph, perform_augmentation"]}
{"id": "C52", "title": "Pruning keeps a usable pair for every two departments", "statement": "For up to 11 departments, prune_teams returns the ordered pairs of departments in product order such that (u,u) is always available, of two different departments at least one order is available, and an order is missing exactly when the other order has a strictly lower score F_u+W_v at equal distances, or an equal score and comes first, both with equal rendez-vous kinds; for 12 or more departments the call raises.", "quantifier": "every number of departments", "why_tests_cant": "All pairs of all sizes; the table lookups fail only beyond 11 departments.", "anchors": ["src/impa/Impa.py: ImpaKcMwm.prune_teams", "src/impa/initializationModule.py"]}
{"id": "C53", "title": "A complete KC-MWM call reports teams within capacity", "statement": "For every KC-MWM problem in which every kind of team fits once, with finite rewards and a threshold of at most 0, initialize/iterate/pre_analysis/post_analysis return; the matched pairs are those with intrinsic value below the threshold; the reported teams are the teams of matched pairs minus removed ones, with their departments and types, and with post-processing they are within every capacity.", "quantifier": "all capacities, type lists, rewards, numbers of iterations, filtering parameters, both post-processing options", "why_tests_cant": "All problems; the chain crosses Python and C++.", "anchors": ["src/impa/Impa.py: ImpaKcMwm", "src/impa/main_kc_mwm.py", "include/impalib/graphical_model.hpp: GraphicalModelKcMwm"]}
{"id": "C54", "title": "Counters returned by WrapperTsp are read back exactly", "statement": "The three result counters that WrapperTsp writes through int pointers into zero-initialised 64-bit numpy cells (number of subtour constraints, total size of their edge lists, number of augmentation rounds) are read by Python as the numbers written.", "quantifier": "all counts from 0 to 2^31-1, little-endian memory", "why_tests_cant": "A 4-byte store into an 8-byte cell works only because the other half is zero and the machine is little-endian; tests on one machine with small counts cannot show this.", "anchors": ["src/impa/Impa.py:317-324", "include/impalib/graphical_model.hpp:416-433", "src/impa/cFunctionAPI.py"]}
{"id": "C55", "title": "Whole runs of the pure Python solvers and of the C++ library agree (K-SAT, KC-MWM)", "statement": "For the same instance and the same settings, the pure Python reference solvers (test/python_ksat, test/python_kc_mwm) and the package (Python front end plus C++ library) return the same extrinsic outputs, intrinsic outputs and decisions after the same number of iterations.", "quantifier": "every generated formula with at least two literals per clause and every KC-MWM instance with at least one team per department, weights within the capacities and teams in at most two departments; every number of iterations; filtering on or off with any alpha", "why_tests_cant": "The repository compares single updates on random inputs with tolerance; a drift between whole runs that depends on the instance or on the iteration count is not seen.", "anchors": ["test/python_ksat/src/graphical_model.py", "test/python_kc_mwm/src/graphical_model.py:98-113,368-405", "include/impalib/graphical_model.hpp"]}
{"id": "C56", "title": "Whole runs of the pure Python TSP solver and of the C++ library agree", "statement": "For the same cost matrix and the same settings, the pure Python TSP solver (test/python_tsp) and the package (Python front end plus C++ library) have, after every augmentation round, the same intrinsic outputs, selected edges, cost, loops and subtour constraints, and end with the same tour; they differ only in that the library also stops at its own limits (no improvement, oscillation, no constraints, number of rounds) and ends the process on a selection of cost 0.", "quantifier": "every cost matrix with zero diagonal and no other zero on at least three nodes, every number of iterations and rounds, filtering and reset on or off, any alpha, any threshold", "why_tests_cant": "The repository compares single updates on random inputs with tolerance; whole runs, in which the set of constraints grows from round to round, are not compared.", "anchors": ["test/python_tsp/src/graphical_model.py:41-480", "test/python_tsp/src/main_tsp.py:167-171", "include/impalib/graphical_model.hpp:300-860"]}
{"id": "C57", "title": "The result of a TSP call does not depend on the iteration order of the hash map", "statement": "For the same cost matrix and settings, any two iteration orders of the std::unordered_map used by the loop search lead to calls that end in the same way, with the same extrinsic and intrinsic outputs, selected edges, cost, counters and flags, the same subtour constraints in some order, the same loops up to their order and starting nodes, and the same tour up to its starting node.", "quantifier": "every cost matrix with zero diagonal and no other zero on at least three nodes, all settings, any two iteration orders, any number of rounds", "why_tests_cant": "A test run sees the one order its standard library happens to produce.", "anchors": ["include/impalib/graphical_model.hpp:706-860", "include/impalib/graphical_model.hpp:619-700", "include/impalib/graphical_model.hpp:347-384"]}
{"id": "C58", "title": "On formulas without cycles the K-SAT solver is exact and finds the cheapest satisfying assignment", "statement": "If the clauses of a K-SAT formula form a forest, filtering is off and there are at least as many iterations as clauses (one more if the initial messages are not the metrics), the value returned for every variable equals the cost of the cheapest satisfying assignment that sets it minus the cost of the cheapest one that does not, its own metric not counted. In a complete call, if one satisfying assignment is cheaper than all others by more than the absolute value of the threshold, the decisions are that assignment and the formula is reported as satisfied.", "quantifier": "every formula with clauses of k >= 2 literals whose clauses form a forest, all metrics, any number of variables, clauses and iterations (at least the number of clauses)", "why_tests_cant": "The claim compares the output with an optimum over all assignments of arbitrarily large formulas; the repository's tests compare two implementations of the same updates on a few random instances.", "anchors": ["include/impalib/graphical_model.hpp: GraphicalModelKsat::iterate", "include/impalib/update_ksat_constraint.hpp: KsatConstraint", "src/impa/Wrapper.cpp: WrapperKsat", "src/impa/Impa.py: GraphicalModelKsat.run_impa, hard_decision_analysis"]}
{"id": "C59", "title": "The first stage of a TSP call finds the cheapest cycle cover, and the cheapest tour if that cover is a tour", "statement": "If one choice of successors (each node visited once, none visiting itself) is cheaper than every other by eps > 0, the filter factor is in [0,1) and the number of iterations exceeds an explicit bound in n, the largest cost, the threshold, the filter factor and eps, then the edges selected by the first stage are exactly those of the cheapest choice and the reported cost is its cost. If that choice forms a single tour, the whole call returns after the first stage with that tour, its cost, and no cheaper tour exists.", "quantifier": "every cost matrix on at least three nodes with zero diagonal, no other zero and a unique cheapest cycle cover; all thresholds, all filter factors in [0,1), all numbers of iterations above the bound, every hash map order", "why_tests_cant": "The claim compares the result with an optimum over all covers and tours of arbitrarily large instances; the tests only compare two implementations of the same updates.", "anchors": ["include/impalib/graphical_model.hpp:316-335 iterate_relaxed_graph", "include/impalib/graphical_model.hpp:557-600 hard_decision_analysis", "include/impalib/update_degree_constraint.hpp", "src/impa/Wrapper.cpp:82-107 WrapperTsp"]}
{"id": "C60", "title": "Symmetries of the first stage of a TSP call", "statement": "Transposing the cost matrix reverses every selected edge and keeps the cost; renaming the nodes and multiplying costs and threshold by a positive number renames the selection and multiplies values and cost. For a symmetric cost matrix every selected edge is therefore selected in both directions and the first stage never selects exactly the edges of a tour.", "quantifier": "every cost matrix on at least three nodes with zero diagonal and no other zero, all settings, all permutations of the nodes, all positive factors, every hash map order", "why_tests_cant": "Relates two runs on different inputs, for all inputs; no test compares a run with the run on a transposed or renamed instance.", "anchors": ["include/impalib/graphical_model.hpp:316-335 iterate_relaxed_graph", "include/impalib/update_degree_constraint.hpp", "src/impa/Impa.py: GraphicalModelTsp.initialize (edge list and cost arrays)"]}
{"id": "C61", "title": "On formulas without cycles the filtered K-SAT solver converges to the exact answer", "statement": "If the clauses form a forest and the filter factor is in [0,1), the outputs of the solver converge, as the number of iterations grows, to the exact values (cheapest satisfying assignment with the variable set minus cheapest with it unset). If one satisfying assignment is cheaper than every other by more than the threshold, then from some number of iterations on the complete call decides for it and reports the formula as satisfied.", "quantifier": "every forest formula, all metrics, filtering on or off, every filter factor in [0,1), all initial messages (first part), all thresholds, all set orders, with and without post-processing", "why_tests_cant": "Concerns a limit over the number of iterations and an optimum over all assignments; tests compare two implementations after a fixed number of iterations.", "anchors": ["include/impalib/graphical_model.hpp GraphicalModelKsat::iterate", "include/impalib/update_ksat_constraint.hpp process_filtering, variable_ec/ksat updates", "src/impa/Impa.py GraphicalModelKsat.run_impa"]}
{"id": "C62", "title": "The K-SAT solver respects renaming, sign flips and scaling", "statement": "Rename the variables, rename and reorder the clauses, reorder the literals inside the clauses, negate all literals of some variables, and scale the costs and initial messages by a positive factor (negating them at the negated variables). Then after every number of iterations the outputs of the solver are the old outputs, renamed, scaled and negated at the negated variables. Every variable whose total is not 0 gets the corresponding decision (threshold 0).", "quantifier": "all well-formed formulas with clauses of one size k >= 2, all bijections of variables and clauses, all sets of negated variables, all positive factors, all iteration counts, filtering on or off, all filter factors, all orders of the used-variable and clause lists", "why_tests_cant": "A relation between two runs for all bijections and sign patterns; tests run one formula and compare two implementations.", "anchors": ["include/impalib/graphical_model.hpp GraphicalModelKsat::iterate", "include/impalib/update_ksat_constraint.hpp", "src/impa/Impa.py GraphicalModelKsat.hard_decision_analysis"]}
{"id": "C63", "title": "DIMACS files: what is written is read back, and files are read as the formula they describe", "statement": "create_cnf_file writes a file from which read_cnf_file returns the same numbers, clause lists and types, the variable view of the same graph, the same set of used variables, and gives the solver the same clauses. More generally a file made of comments, a header, one line per clause (equal sizes, any blanks between the words) and the usual trailing lines is read as the formula it describes, whether or not its last line has a line end. Two clauses written on one line, which the format allows, are not: they are read as one. Clauses of unequal size are rejected.", "quantifier": "all formulas with at least one clause and clause size >= 1, all numbers of variables (any number of digits), all layouts of blanks, all leading comments and trailing lines, all set orders", "why_tests_cant": "No test covers these scripts; the claim ranges over all texts and all numbers.", "anchors": ["test/python_ksat/src/process2cnf.py create_cnf_file", "test/python_ksat/src/run_minisat.py read_cnf_file"]}
{"id": "C64", "title": "The MiniSat comparison reports a formula as satisfied exactly if the model satisfies it", "statement": "For a file as in C63 with the right number of clauses in its header, the clauses reported as unsatisfied are exactly those without a true literal in the model returned by the solver, and formula_satisfied is True exactly if every clause has one.", "quantifier": "all such files, all models (also of the wrong length)", "why_tests_cant": "Quantifies over all formulas and all models; the script has no tests.", "anchors": ["test/python_ksat/src/run_minisat.py main block"]}
{"id": "C65", "title": "Command line options reach the solver object", "statement": "Running main_tsp.py, main_ksat.py or main_kc_mwm.py with any readable settings of documented options (exact or unambiguously abbreviated names, '--name value' or '--name=value', any order, repetitions) constructs a solver object in which every attribute has the value given by the last setting of its option, or the documented default; the results folder, the input file and the decision to save are those of the options. main_ksat stops exactly if kVariable >= nVariables.", "quantifier": "all command lines made of such settings, of any length, with any numbers and texts", "why_tests_cant": "The programs pass up to 16 options by position and have no tests; the claim covers all combinations and values.", "anchors": ["src/impa/main_tsp.py", "src/impa/main_ksat.py", "src/impa/main_kc_mwm.py", "src/impa/Impa.py __init__ of the three classes"]}
{"id": "C66", "title": "The unit of the costs does not matter", "statement": "Multiply all costs and the decision threshold by the same positive factor. A TSP call then takes the same course: it fails, exits or returns in the same way, all integer outputs, counters and flags are equal, and every number is multiplied by the factor; the Python answer after reading and repairing the results has the same tour. A K-SAT call gives the same decisions and the same repaired assignment. A KC-MWM call gives the same result in the other unit.", "quantifier": "all positive rational factors, all inputs of any size (well formed or not, infinities and NaN included), all options, iteration counts and rounds of augmentation, with and without post-processing", "why_tests_cant": "Two complete runs, with data-dependent branches in every round, are compared for every factor and every input.", "anchors": ["include/impalib/graphical_model.hpp", "include/impalib/update_or_inequality_constraint.hpp:120-136", "src/impa/Impa.py GraphicalModelTsp, GraphicalModelKsat", "src/impa/Wrapper.cpp"]}
{"id": "C67", "title": "TSP instances are complete graphs with the drawn costs, and stored instances are read back unchanged", "statement": "The cost matrix drawn for n nodes is n by n with a zero diagonal; off the diagonal an entry is the draw of its cell or, for symmetric instances, the draw of the cell above the diagonal, so the matrix is symmetric. The list of edges is the complete directed graph, row by row. An object that reads a generated file has the same fields as an object that draws the same numbers itself, whatever its own options and draws. The library call of the object is the call for its matrix.", "quantifier": "all numbers of nodes, all draws different from zero, both kinds, all options of the reading object", "why_tests_cant": "The draws are random numbers and the number of nodes is not bounded.", "anchors": ["src/impa/Impa.py:107-204", "test/python_tsp/src/generate_inputs.py:20-80"]}
{"id": "C68", "title": "K-SAT metrics are drawn as documented, and stored instances are read back unchanged", "statement": "Every variable gets one metric: its mean is minus or plus half the variance according to the planted value (type 1), on a random side (type 0) or zero (type 2), plus the deviation. With type 1 and deviations below half the variance, the threshold decision on the metrics alone is the planted assignment, and it satisfies the formula drawn with it. An object that reads a generated file has the same fields as one that draws the same numbers; with the overwrite option it keeps the formula and has the metrics of the new type, variance and draws. The run of the object succeeds and reports the formula as satisfied exactly if its assignment satisfies it.", "quantifier": "all numbers of variables, clauses and literals per clause, all draws, variances and types, all options", "why_tests_cant": "The draws are random numbers; sizes are not bounded.", "anchors": ["src/impa/Impa.py:2267-2441", "test/python_ksat/src/generate_inputs.py:12-140"]}
{"id": "C69", "title": "The numbering of teams, projects and departments does not matter to a KC-MWM call", "statement": "Renumber the teams, the projects and the departments of an instance in any way. The call for the renumbered instance returns the values of the original call, renumbered: outputs of teams, intrinsic values of teams and intrinsic values of (project, team) pairs.", "quantifier": "all instances (any number of teams, projects and departments, each team in at most two departments), all renumberings of the three index sets at once, all iteration counts, with and without filtering, all factors", "why_tests_cant": "All permutations of three index sets of unbounded size over an unbounded number of iterations.", "anchors": ["include/impalib/knapsack.hpp", "include/impalib/graphical_model.hpp GraphicalModelKcMwm", "src/impa/Wrapper.cpp WrapperKcMwm"]}
{"id": "C70", "title": "KC-MWM finds the best selection when scarce departments count teams", "statement": "Call a department scarce if its capacity cannot take all its teams. Suppose that in every scarce department all teams have the same weight, that no team is in two scarce departments, and that one selection of (project, team) pairs within the capacities is cheaper than every other one by some gap. Then after a stated number of iterations (depending on the numbers of teams and departments, on a bound of the costs, on the gap and on the filter factor) the intrinsic values of exactly the pairs and teams of this selection are negative, and a call of the Python package reports exactly its teams, each with its project, without any repair. Both conditions on scarce departments are needed.", "quantifier": "all such instances (any number of teams, projects and departments, each team in at most two departments, rewards at least -1000000), all filter factors from 0 to below 1, all larger iteration counts, both post-processing options, all thresholds not above 0 and above minus the gap over 1 + departments + teams", "why_tests_cant": "Convergence to the global optimum of a combinatorial problem, for all instances of a class of unbounded size and every number of iterations above a bound.", "anchors": ["include/impalib/graphical_model.hpp GraphicalModelKcMwm", "include/impalib/knapsack.hpp", "include/impalib/update_or_inequality_constraint.hpp", "src/impa/Impa.py GraphicalModelKcMwm"]}
{"id": "C71", "title": "What the K-SAT post-processing repairs", "statement": "First stage: if two violated clauses share a literal and making it true leaves fewer violated clauses, the stage leaves fewer violated clauses. Third stage: if setting between two and pp of the variables it considers in some way leaves fewer violated clauses, the stage leaves fewer. Second stage, one violated clause c: it changes at most one variable; if it changes one, all clauses are true afterwards, and the literal it makes true occurs in c and in a clause that shares some but not all variables with c and is true only through variables of c. Conversely, if making such a literal true makes all clauses true, post-processing ends with all clauses true whatever pp is. Whole post-processing: if one clause (of at least two variables) is violated after the hard decision, pp is at least 2, and setting at most pp variables of that clause in some way makes all clauses true, then post-processing ends with all clauses true and says so.", "quantifier": "all formulas, all hard decisions, all numbers pp, all iteration orders of the two sets the code loops over", "why_tests_cant": "Unbounded formulas, and an existential premise: any one among exponentially many settings suffices, wherever it is in the order of the search.", "anchors": ["src/impa/Impa.py GraphicalModelKsat.run_post_processing"]}
{"id": "C72", "title": "TSP calls in floating-point arithmetic", "statement": "If all costs are whole multiples of one power of two, filtering is off (or alpha is 0) and the bounds below hold, a TSP call whose additions, subtractions and multiplications are rounded gives exactly the result of the call in exact arithmetic: same messages, same selection, same tours, same outputs. Rounding is any function that leaves the numbers of the floating-point format alone. Bounds, with C the largest cost in units: (n*(iterations+1)+1)*C and n*n*C are below 2^precision; with augmentation also (K+3)^2*B and (n+K+1)*B, when the messages of the exact run stay within B units and at most K constraints are added.", "quantifier": "all node counts, cost matrices, options, rounding functions, precisions and exponent ranges within the bounds", "why_tests_cant": "Tests compare the float program with nothing exact; the claim is about all inputs up to the bound and about every rounding mode.", "anchors": ["include/impalib/common.hpp 32-38", "include/impalib/graphical_model.hpp GraphicalModelTsp", "src/impa/Impa.py GraphicalModelTsp.run_impa"]}
{"id": "C73", "title": "K-SAT calls in floating-point arithmetic", "statement": "If metrics and initial messages are whole multiples of one power of two, filtering is off (or alpha is 0), the variable-to-clause messages of the exact run stay within B units and (2k(nc+1)+1)*B is below 2^precision, then the library call for K-SAT with every operation rounded returns exactly what the exact call returns; without a hypothesis on the run it does if (2k(nc+1)+1)^iterations times the largest input, in units, is below 2^precision, or, if no literal occurs in more than d clauses, if (2k(nc+1)+1)(1+d+...+d^iterations) times the largest input is. Rounding is any function that leaves the numbers of the format alone.", "quantifier": "all formulas, metrics, iteration counts, rounding functions, precisions and exponent ranges within the bounds", "why_tests_cant": "Tests compare the float program with nothing exact; the claim is about all formulas up to the bound and every rounding mode.", "anchors": ["include/impalib/update_ksat_constraint.hpp", "include/impalib/update_equality_constraint.hpp 291-325", "include/impalib/graphical_model.hpp GraphicalModelKsat"]}
{"id": "C74", "title": "KC-MWM calls in floating-point arithmetic", "statement": "If all rewards are whole multiples of one power of two that divides 1, filtering is off (or alpha is 0), the messages of the exact run, the rewards and the constant 10^6 stay within B units and ((4D+1)(4T+2)+9)*B is below 2^precision (D departments, T teams), then the library call for KC-MWM with every operation rounded returns exactly what the exact call returns; without a hypothesis on the run it does if ((4D+1)(4T+2)+9)^(iterations+1) times the largest of these is below 2^precision, and, for the arguments the Python interface passes on, with rewards up to b units, for any number of iterations if ((4D+1)(4T+2)+9) times the larger of 10^6 and (4+2DT)b is. Rounding is any function that leaves the numbers of the format alone.", "quantifier": "all instances, rewards, iteration counts, rounding functions, precisions and exponent ranges within the bounds", "why_tests_cant": "Tests compare the float program with nothing exact; the claim is about all instances up to the bound and every rounding mode.", "anchors": ["include/impalib/knapsack.hpp", "include/impalib/update_or_inequality_constraint.hpp", "include/impalib/update_equality_constraint.hpp", "include/impalib/graphical_model.hpp GraphicalModelKcMwm"]}
{"id": "C75", "title": "Which edges the TSP post-processing removes", "statement": "If no selected edge has a competitor both at its start (another selected edge leaving the same node) and at its end (another one entering the same node), the repair of the degrees keeps, of two or more selected edges leaving a node, exactly one with the largest absolute intrinsic value, likewise for edges entering a node, and removes no edge without competitors. Without that condition this is false. Every listed subtour that has lost no edge to this repair loses exactly one edge, one with the smallest absolute intrinsic value on it; a subtour that lost an edge loses no further one, and nothing else is removed. When the listed subtours share no nodes, the pieces printed afterwards are parts of subtours without a removed edge, they cover every edge of a subtour that was not removed, and no piece has all its nodes on another; for subtours that share nodes this is false.", "quantifier": "all complete graphs, selections, intrinsic values and lists of subtours", "why_tests_cant": "The rule is about every selection and every order in which the nodes are treated; sampled runs seldom produce nodes with several successors and would not show a wrong choice.", "anchors": ["src/impa/Impa.py 540-649 run_post_processing_improved", "src/impa/Impa.py 467-513 paths_cleaning"]}
{"id": "C76", "title": "A KC-MWM call with post-processing reports a feasible selection and the printed totals are its value", "statement": "For every problem with finite rewards in which every kind of team fits, and a threshold of at most 0, no project is matched to two teams. With post-processing on, the reported results are the pairs of a selection: every team and every project at most once, no department over its capacity, all of them matched pairs. The totals printed after post-processing (value, number of teams and projects, whether all projects have a team, weight) are those of this selection, and weight minus value is its cost; under the conditions of C70 they are the totals of the best selection. The totals printed before post-processing count every team once and every matched pair once, and the flags and counts of matched, unmatched and reused say what they claim. Without post-processing the final totals count only the first project of every team and differ from the reported pairs.", "quantifier": "all capacities and types accepted by the package, all rewards, iterations, alpha, both options", "why_tests_cant": "Feasibility of the reported assignment and agreement of the printed summary with it must hold for every reward table and iteration count; the tests only compare intermediate messages.", "anchors": ["src/impa/Impa.py 1569-1600, 1694-1796 pre_analysis, pre_processing_analysis", "src/impa/Impa.py 2098-2232 results_analysis", "include/impalib/project_inequality_constraint.hpp, update_or_inequality_constraint.hpp"]}
{"id": "C77", "title": "Settled K-SAT messages give a satisfying assignment that is locally cheapest", "statement": "Take a complete K-SAT call with at least one iteration, with or without filtering, on any generated formula (cycles allowed). If another iteration would weaken no clause-to-variable message by more than e, judged by the sign of the variable's returned value (as for messages that have settled up to e), and every returned value is further from 0 than e and the threshold, then the decisions satisfy every clause, the formula is reported as satisfied, and no satisfying assignment is cheaper by more than e for every further clause of a variable that differs, provided the differing variables and their clauses contain at most one cycle in every connected part. Clauses whose messages to the differing variables are 0 need not be counted. If a part is a tree, the other assignment is dearer by the margin of any chosen root variable. In particular changing one decision never pays, and on formulas without cycles the decisions are the cheapest assignment.", "quantifier": "all formulas, metrics, iteration counts, filter factors, thresholds, all competing assignments", "why_tests_cant": "A test can run the solver on some formulas and compare with brute force; it cannot show that convergence of the messages certifies satisfaction and local optimality for every formula, every metric and every competing assignment.", "anchors": ["include/impalib/update_ksat_constraint.hpp: KsatConstraint", "include/impalib/update_equality_constraint.hpp: variable_ec_to_ksat_constraint_update", "include/impalib/graphical_model.hpp: GraphicalModelKsat::iterate", "src/impa/Impa.py 2443-2645: run_impa, get_summary, print_summary, hard_decision_analysis"]}
{"id": "C78", "title": "Settled TSP messages give locally cheapest cycle covers and tours", "statement": "Take a TSP stage of a call with at least one iteration, with or without filtering. Suppose another iteration would weaken no message from a node or subtour constraint by more than e, judged by the sign of the edge's reported value, and every reported value is further from 0 than e and the threshold. Then the selected edges are exactly a cycle cover (every node left once and entered once, without loops) that crosses every subtour constraint, and its cost is the reported one. After the first stage no cycle cover, and if a tour was selected no tour, is cheaper by more than e for every exchanged edge. After a later round no cover or tour is cheaper by more than a stated multiple of e, once the messages from the subtour constraints are added to the edge costs; constraints in which the two selections differ at one edge at most need not be added.", "quantifier": "all cost matrices with at least three nodes, iteration counts, filter factors, thresholds, set orders, rounds, all competing covers and tours", "why_tests_cant": "A test can compare single runs with brute force; it cannot show that supporting messages certify an optimal cover for every matrix and every competing cover or tour.", "anchors": ["include/impalib/graphical_model.hpp: GraphicalModelTsp::iterate_relaxed_graph, iterate_augmented_graph, perform_augmentation"]}
{"id": "C79", "title": "Settled KC-MWM messages give a locally cheapest selection", "statement": "Take a KC-MWM call with at least one iteration, with or without filtering, on any instance (departments may share teams, weights may differ). Suppose another iteration would weaken no message from a department, from a coupling constraint or from a team by more than e (and strengthen none from a team by more than e2), judged by the sign of the reported value, every reported value of a team or pair is further from 0 than e, the threshold lies between -e and 0, and no team message is at its cap of 1000000. Then the pairs of negative value are a selection (every project and every team at most once, every department within its capacity), the teams of negative value are exactly its teams, and the call reports exactly these teams with their projects and repairs nothing. No assignment of teams to projects is cheaper by more than 3e + 5e2 per exchanged pair, where every department either keeps its capacity and exchanges one team at most, or its messages are added to the costs of its teams; if all departments do the latter, the other assignment may even exceed the capacities.", "quantifier": "all instances, weights, capacities, costs, iteration counts, filter factors, thresholds, all competing assignments", "why_tests_cant": "A test can compare single runs with brute force; it cannot show that supporting messages certify a feasible selection and its prices against every competing assignment on every instance.", "anchors": ["include/impalib/graphical_model.hpp: GraphicalModelKcMwm::iterate", "include/impalib/update_or_inequality_constraint.hpp", "include/impalib/knapsack.hpp", "include/impalib/project_inequality_constraint.hpp", "src/impa/Impa.py: KC-MWM run_impa, pre_analysis, results_analysis"]}
{"id": "C80", "title": "What a K-SAT output depends on", "statement": "After n iterations of the K-SAT solver, with or without filtering, the value returned for a variable depends only on the clauses within distance n of it and the costs of their variables: two formulas that agree there give the same value, whatever they are elsewhere and however they are stored. More generally, two variables (of one or two formulas) whose surroundings up to that distance can be matched clause by clause and literal by literal get the same value, so the solver cannot tell a formula from any of its coverings, after any number of iterations. If the surroundings of a variable, matched in this way, are a formula without cycles that ends there, the unfiltered value is the min-sum message of that tree: its cheapest satisfying assignment with the variable set to 1 minus the cheapest with it set to 0.", "quantifier": "all pairs of formulas, variables, costs, distances, iteration counts, filter factors, storage orders", "why_tests_cant": "It relates runs on different formulas, of different sizes, for every distance and iteration count; an update that reads one clause too many or counts a neighbour twice can agree on any sample of instances.", "anchors": ["include/impalib/graphical_model.hpp: GraphicalModelKsat::iterate", "include/impalib/update_equality_constraint.hpp", "include/impalib/update_ksat_constraint.hpp", "src/impa/Wrapper.cpp: WrapperKsat"]}
{"id": "C81", "title": "The K-SAT solver is exact on the unfolding of every formula", "statement": "Take any formula, with or without cycles, and any number n of iterations without filtering. The value returned for a variable is the cost of the cheapest labelling of the formula's unfolding with the variable set to 1, minus the cost of the cheapest with it set to 0 (the variable itself not counted); both exist. The unfolding has a copy of a variable for every walk of at most n steps that starts at the given variable and never turns back, and a copy of a clause wherever such a walk passes one. Without post-processing a call therefore sets a used variable exactly when the best labelling of the unfolding that sets it costs, metrics included, at most the threshold more than the best one that does not.", "quantifier": "all formulas, costs, variables, iteration counts, thresholds, storage orders", "why_tests_cant": "It is an exact description of the output on formulas with cycles, where it is not the optimum of the formula and no brute-force reference on the formula applies; the unfolding grows exponentially with the iterations.", "anchors": ["include/impalib/graphical_model.hpp: GraphicalModelKsat::iterate", "include/impalib/update_equality_constraint.hpp", "include/impalib/update_ksat_constraint.hpp", "src/impa/Wrapper.cpp: WrapperKsat", "src/impa/Impa.py: GraphicalModelKsat.run_impa, hard_decision_analysis"]}
{"id": "C82", "title": "The first TSP stage is exact on the unfolding of the cycle-cover model", "statement": "Take any cost matrix on at least three cities and any positive number n of iterations of the first (relaxed) stage without filtering. The value of edge (u,v) is the cost of the cheapest labelling of the unfolding of the cycle-cover model with the edge chosen, minus the cost of the cheapest with the edge not chosen (the cost of the edge itself not counted); both exist. The model says that exactly one edge leaves every city and exactly one enters it; its unfolding has a copy of an edge for every walk of at most n steps from edge to edge through shared constraints that never turns back. The stage therefore selects an edge exactly when the best labelling with it costs, the edge included, at most the threshold more than the best one without it.", "quantifier": "all cost matrices with at least three cities, edges, iteration counts, thresholds, edge orders", "why_tests_cant": "It describes the output exactly before the messages settle and where they never do; the reference is an optimum over a tree that grows exponentially with the iterations.", "anchors": ["include/impalib/graphical_model.hpp:316-335 iterate_relaxed_graph", "include/impalib/update_degree_constraint.hpp", "src/impa/Impa.py: GraphicalModelTsp.initialize (edge list and cost arrays)"]}
{"id": "C83", "title": "The search for a closed loop of a given length ends, and returns only cycles of that length", "statement": "get_loops(selected_edges, path_length) ends for any edges. A list it returns is a simple directed cycle of the selected edges with path_length nodes. Full statement: it returns one whenever such a cycle exists. This holds where at most one selected edge enters every city; in general it is false.", "quantifier": "all lists of edges, all lengths", "why_tests_cant": "A cycle is missed only if an earlier walk crossed it without closing; the method is called by no test.", "anchors": ["src/impa/Impa.py:998-1073"]}
{"id": "C84", "title": "The pure Python K-SAT object draws satisfiable instances and reports what the library reports", "statement": "An instance drawn by the pure Python solver has exactly the requested number of clauses, each on k distinct variables; clause view and variable view agree; its truth vector satisfies every clause; the metric of a variable is drawn around -3/2 if the variable is true in it, around 3/2 otherwise. For any stored instance, the pure Python object and the library object hold the same formula and metrics after loading, their runs (without the repair, which only the library has) give the same outputs, decisions and report, and the clauses reported as violated are exactly those the decisions violate. Full statement: also with filtering at alpha = 0, with clauses on different sets of variables, and with a truth vector that satisfies a loaded formula; these three are false.", "quantifier": "all sizes, random draws, stored instances, iteration counts, thresholds, filtering settings", "why_tests_cant": "The tests compare single updates on random instances; they never compare reports, and the leftover truth vector of a discarded instance is only visible when an instance is loaded.", "anchors": ["test/python_ksat/src/graphical_model.py:33-69", "test/python_ksat/src/graphical_model.py:118-163", "test/python_ksat/src/graphical_model.py:165-226", "src/impa/Impa.py: GraphicalModelKsat.initialize, run_impa, get_summary"]}
{"id": "C85", "title": "The pure Python KC-MWM object gives the library's answer; its printed weight counts a reported pair once per match of its team", "statement": "On the same inputs the pure Python KC-MWM object and the library's front end (first post-processing option) end with the same matched pairs, the same remaining teams and the same results. The total weight the pure Python object prints after post-processing is the sum, over the reported pairs, of the value of the pair times the number of projects its team was matched to; without post-processing it is the sum over all matched pairs, the total printed before. Value, number of teams, number of matched projects and the flag for 'all projects matched' are those of the reported pairs. Full statement: both print the same totals; this holds when no remaining team was matched twice and is false otherwise.", "quantifier": "all capacities, team types, rewards, iteration counts, filtering settings, thresholds at most zero", "why_tests_cant": "The tests compare single message updates; nothing compares answers or printed totals, and the difference only shows when a team matched to two projects survives the repair.", "anchors": ["test/python_kc_mwm/src/graphical_model.py:32-142", "test/python_kc_mwm/src/graphical_model.py:368-419", "test/python_kc_mwm/src/graphical_model.py:597-825", "test/python_kc_mwm/src/main_pure_optimized.py:35-47", "src/impa/Impa.py: ImpaKcMwm.results_analysis"]}
{"id": "C86", "title": "The self-check of the team output compares two orders of summation", "statement": "The program test_EOP adds the department messages and the coupling message of every team in the order of the library and in a plain order and compares the results with '!='. For every rounding it ends with 'Succeeded' exactly when the two rounded sums compare equal for every team. It always succeeds in exact arithmetic, and in floating-point arithmetic when all numbers are multiples of one power of two and small enough. Full statement: it always succeeds; false for double precision with numbers from the range the program draws from.", "quantifier": "all numbers of departments and teams, all numbers, all rounding functions", "why_tests_cant": "It is a test itself, on random numbers: whether it passes depends on the draw.", "anchors": ["test/src/test_EOP/test_EOP.cpp:33-80", "include/impalib/input_output.hpp:155-162"]}
{"id": "C87", "title": "What the verdict of a unit test says about the two arrays", "statement": "Full statement: the comparison routines of the unit tests report PASSED exactly when the Python array and the C++ array agree within the tolerances. For finite arrays check_agreement does: it passes exactly when every pair of entries differs by at most atol and by at most rtol times the absolute value of (largest entry of the Python array + 1e-30). But one entry that is NaN in either array, or the same infinity in both, makes it pass whatever the other entries are. check_forward_backward_results ignores its tolerances: for any tolerances below 1 it passes exactly when the finite entries of the two arrays, read in order, are equal; so it fails on differences below the tolerance, and passes when the infinite entries are in different places. With a NaN in the Python table it does not pass; a NaN in the C++ table only is overlooked.", "quantifier": "all arrays, all tolerances (forward/backward: between 0 and 1), any number of files", "why_tests_cant": "It is the judge of the tests itself; no test feeds it NaN, infinities in different places or differences between zero and the tolerance.", "anchors": ["test/python_tsp/test/ut_utils.py:9-34", "test/python_ksat/test/ut_utils.py:9-34", "test/python_kc_mwm/test/ut_utils.py:10-81", "test/python_kc_mwm/test/ut_methods_utils.py:26-27"]}
{"id": "C88", "title": "What the demonstration programs print", "statement": "The K-SAT demonstration prints, for every number n of iterations and every filtering parameter e between 0 and 1 (0 without filtering), exactly -(c+s)(1-e^n) + s(1-e) n e^(n-1) for x0, s(1-e^n) for x2 and 0 for the others, where c is the metric of x2 and s the negated metric of x4; deciding by the sign of metric plus output always gives an assignment that satisfies both clauses and is strictly cheaper than every other assignment. The KC-MWM demonstration without filtering prints -1, 1, 3, 46, -51 for every number of iterations from 10 on, negative exactly for the two teams of the one cheapest selection; with filtering it prints five finite numbers for every number of iterations and parameter. The arrays written into the TSP demonstration are those the Python front end builds from its cost matrix, and for every number of iterations, filtering parameter and hash order it makes no access out of range and keeps all messages finite.", "quantifier": "all numbers of iterations, all filtering parameters (K-SAT: between 0 and 1), all hash orders; the instances are those of the programs", "why_tests_cant": "The programs are not run by any test; a run shows one number of iterations and one filtering parameter.", "anchors": ["examples/Ksat/demo.cpp:10-61", "examples/KcMwm/demo.cpp:10-68", "examples/Tsp/demo.cpp:10-80"]}
{"id": "C89", "title": "The unit tests of single steps pass whatever they draw", "statement": "For the seven TSP, three K-SAT and seven KC-MWM unit tests of single steps (all but those of the knapsack passes and of whole runs): whatever numbers, graph, cuts or formula the Python program of the test draws, the pure Python step and the C++ step on the data read back from the files store the same numbers, and the comparison succeeds for all non-negative tolerances. This needs 3 nodes for the degree test and 2 for the other TSP tests, at least one cut of at least two edges, at least one clause, at least 2 projects for Oric2ProjectEcUpdate, and for ProjectInequalityConstraintUpdate at least 2 teams and a number of teams different from the number of projects; with as many teams as projects that test fails, with a single team or project, two nodes or no cuts the tests raise. The switch for filtering has no effect on the tests: every non-empty text counts as true.", "quantifier": "all sizes, all drawn matrices, cuts, formulas and metrics, all non-negative tolerances", "why_tests_cant": "A run of the tests draws one instance at one size; the sizes in the scripts avoid those at which the tests fail or raise.", "anchors": ["test/python_tsp/test/ut_update_equality_constraint.py:13-115", "test/include/ut_update_equality_constraint.hpp:94-342", "test/python_ksat/test/ut_update_ksat_constraint.py:13-54", "test/include/ut_update_ksat_constraint.hpp:13-80", "test/python_kc_mwm/test/ut_project_inequality_constraint.py:13-33", "test/include/ut_input_output.hpp:12-204"]}
{"id": "C90", "title": "The unit tests of the knapsack steps pass whatever they draw", "statement": "For the five KC-MWM unit tests of the knapsack (forward, backward, extrinsic output of a department, team to knapsack, processing of the extrinsic output): whatever rewards, tables and messages the Python program draws for the teams it generates, the pure Python step and the C++ step on the data read back from the files store the same arrays, infinities included, and the comparison succeeds; for the two passes this holds for all tolerances below 1 and whatever the order in which the result files are listed. It needs room in the departments for one team of every kind (then every department has a team, no team is heavier than a capacity and none belongs to three departments), and alpha different from 0 when filtering is on. Without room the generator still adds one team, which is heavier than its department, and the backward test reads out of range; with alpha 0 the Python step raises.", "quantifier": "all numbers and capacities of departments, all lists of team types 1..5, all drawn rewards, tables and messages, all numbers of iterations", "why_tests_cant": "A run of the tests draws one instance for one list of capacities; the capacities in the scripts leave room for every kind of team.", "anchors": ["test/python_kc_mwm/test/ut_knapsack.py:13-271", "test/include/ut_knapsack.hpp:17-314", "test/python_kc_mwm/test/ut_utils.py:83-265", "test/python_kc_mwm/test/ut_methods_utils.py:30-40"]}
{"id": "C91", "title": "The unit tests of whole runs pass whatever they draw", "statement": "For the five unit tests of whole runs (K-SAT Iterate, TSP IterateRelaxedGraph and IterateAugmentedGraph, KC-MWM Iterate and IterateSampleGraph): whatever instance, metrics, costs, teams and rewards the Python program draws or loads, the whole run of the pure Python solver and that of the C++ library on the data read back from the files store the same numbers, and the comparison succeeds for all non-negative tolerances.", "quantifier": "all sizes, all drawn formulas, cost matrices without a zero, capacities and team types with room for every kind of team, all rewards, all numbers of iterations, filtering on or off", "why_tests_cant": "A run of the tests draws one instance at one size and compares after one number of iterations; whether other draws could fail is not known from it.", "anchors": ["test/python_ksat/test/ut_graphical_model.py:13-99", "test/python_tsp/test/ut_graphical_model.py:32-136", "test/python_kc_mwm/test/ut_graphical_model.py:14-208", "test/include/ut_graphical_model.hpp:15-350"]}
{"id": "C92", "title": "With moderate rewards a KC-MWM call computes the min-sum schedule without any cut-off", "statement": "If every team has a project whose reward for it is at most 1000000 and exceeds the total reward of no other team for that project by more than 1000000, and the filter factor lies in [0, 1], then in every iteration of a KC-MWM call the message from the coupling constraint to a team is the exact min-sum message: the constant 1000000 in the code never shows. Everything else is as in C50.", "quantifier": "all shapes, weights, capacities, all finite rewards with the stated differences, any number of iterations, filtering on or off with factor in [0, 1]", "why_tests_cant": "Whether a cut-off at a large constant is ever reached depends on how messages grow with the number of iterations.", "anchors": ["include/impalib/update_equality_constraint.hpp: EqualityConstraint::team_eq_constraint_to_oric_update", "include/impalib/update_or_inequality_constraint.hpp: OrInequalityConstraint::oric_to_team_update", "include/impalib/graphical_model.hpp: GraphicalModelKcMwm::iterate"]}
{"id": "C93", "title": "The outputs of a KC-MWM call stay in a range that does not depend on the number of iterations", "statement": "If all rewards lie in [-B, B] and the filter factor in [0, 1], then whatever the number of iterations every extrinsic output of a call lies in [-B, (3 + 2 D T) B] and every intrinsic output of a team or a team-project pair in [-2 B, (4 + 2 D T) B], D and T the numbers of departments and teams. With a factor outside [0, 1] the outputs leave the range.", "quantifier": "all shapes, weights, capacities, all finite rewards, any number of iterations, filtering on or off with factor in [0, 1]", "why_tests_cant": "Divergence of messages shows only after many iterations and for particular instances.", "anchors": ["include/impalib/graphical_model.hpp: GraphicalModelKcMwm::iterate", "include/impalib/update_or_inequality_constraint.hpp", "include/impalib/knapsack.hpp", "src/impa/Wrapper.cpp: WrapperKcMwm"]}
{"id": "C94", "title": "How far K-SAT outputs can grow is governed by the occurrences of literals", "statement": "Let no literal occur in more than d clauses, metrics and initial messages lie in [-B, B] and the filter factor in [0, 1]. After n iterations the output of a variable that occurs positively in p clauses and negatively in q lies between -p(1+d+...+d^(n-1))B and q(1+d+...+d^(n-1))B. The bound cannot be improved: for every d and n there is a formula on d+1 variables on which every variable attains the upper end. So outputs grow at most linearly if no literal occurs twice and exponentially in general. With a factor outside [0, 1] outputs leave the range.", "quantifier": "all formulas with clauses of at least two literals, all metrics and initial messages, all numbers of iterations, filtering on or off with factor in [0, 1]", "why_tests_cant": "Divergence of messages shows only after many iterations, and that a bound is best possible is a statement about all bounds.", "anchors": ["include/impalib/graphical_model.hpp: GraphicalModelKsat::iterate", "include/impalib/update_ksat_constraint.hpp", "include/impalib/update_equality_constraint.hpp", "src/impa/Wrapper.cpp: WrapperKsat"]}
{"id": "C95", "title": "How far the values of the first TSP stage can grow", "statement": "If all costs lie in [-B, B] and the filter factor in [0, 1], every value of the first (relaxed) stage after n iterations lies in [-2nB, 2nB]. Without filtering and with costs in [lo, hi] it lies in [-n(hi-lo), n(hi-lo)] for even n and in [-2hi-(n-1)(hi-lo), -2lo+(n-1)(hi-lo)] for odd n. Both ends are attained for every n by three cities where one way round costs hi an edge and the other lo. With a factor outside [0, 1] values leave the range.", "quantifier": "all numbers of cities from 3 on, all cost matrices, all numbers of iterations, filtering on or off", "why_tests_cant": "How fast messages grow with the number of iterations, and that no smaller bound holds, is a statement about all instances and all numbers of iterations.", "anchors": ["include/impalib/graphical_model.hpp: GraphicalModelTsp::iterate_relaxed_graph", "include/impalib/update_degree_constraint.hpp", "include/impalib/update_equality_constraint.hpp"]}
{"id": "C96", "title": "No pair is matched that costs more than leaving it out", "statement": "In a complete KC-MWM call on any generated instance, with any number of iterations, a threshold at most 0 and a filter factor in [0, 1], every matched pair of a team and a project has team reward plus project reward below the threshold. So the reported selection costs at most the number of its pairs times the threshold, and a selection that is not empty costs less than 0. Behind this: after one or more iterations the value of a pair is never below its cost.", "quantifier": "for all instances, rewards, capacities, numbers of iterations, thresholds at most 0 and filter factors in [0, 1]", "why_tests_cant": "A test sees a few instances and iteration counts; the claim is that in no instance and after no number of iterations does the solver pay for a pair. The reason is an invariant over all messages.", "anchors": ["include/impalib/graphical_model.hpp: GraphicalModelKcMwm", "include/impalib/project_inequality_constraint.hpp: project_inequality_constraint_update", "include/impalib/update_or_inequality_constraint.hpp: team_to_or", "src/impa/Impa.py: ImpaKcMwm"]}
{"id": "C97", "title": "Variables that occur with one sign only are decided by their sign", "statement": "The K-SAT solver's output for a variable that no clause contains negatively is at most 0, and for one that no clause contains positively at least 0, for all metrics, initial messages and numbers of iterations and every filter factor in [0, 1]. So in a complete call without post-processing a variable that occurs only positively and whose metric is at most the threshold is set to 1, one that occurs only negatively and whose metric is above the threshold is set to 0, and every clause that contains such a variable is true.", "quantifier": "all formulas of clauses of at least two literals, metrics, thresholds, numbers of iterations, filter factors in [0, 1]", "why_tests_cant": "The sign has to hold for every formula and after every number of iterations; a wrong sign in a rare combination of messages would not show in a few runs.", "anchors": ["include/impalib/update_ksat_constraint.hpp: KsatConstraint", "include/impalib/graphical_model.hpp: GraphicalModelKsat", "src/impa/Impa.py: GraphicalModelKsat"]}
{"id": "C98", "title": "Small changes of the inputs change the outputs little", "statement": "If the metrics (and initial messages) of two K-SAT runs on the same formula differ by at most e and no variable is in more than d+1 clauses, the outputs of a variable in m clauses differ by at most m(1+d+...+d^(n-1))e after n iterations; a variable whose value is further from the threshold than this plus e is decided the same way in both calls, and if all are, both calls report the same verdict. If two TSP cost matrices differ by at most e, the values of the first stage differ by at most 2ne after n iterations, and an edge whose value is further than (2n+1)e from the threshold is selected in both or in neither. The factor 2n is attained. If the rewards (of teams and pairs) of two KC-MWM calls with T teams and D departments and the same weights and capacities differ by at most e, all returned values differ by at most (6+4DT)^n e after n iterations, and if no value of a pair is that close to the threshold, both calls match the same pairs. Filter factors are in [0, 1].", "quantifier": "all formulas, metrics, initial messages, cost matrices, KC-MWM instances and rewards, numbers of iterations, thresholds, filter factors in [0, 1]", "why_tests_cant": "A statement about all pairs of inputs; tests can only sample a few perturbations, and the growth with the number of iterations has to be known for every number.", "anchors": ["include/impalib/graphical_model.hpp: GraphicalModelTsp::iterate_relaxed_graph", "include/impalib/graphical_model.hpp: GraphicalModelKsat", "include/impalib/update_ksat_constraint.hpp: KsatConstraint", "include/impalib/update_degree_constraint.hpp", "include/impalib/graphical_model.hpp: GraphicalModelKcMwm::iterate"]}
{"id": "C99", "title": "The two halves of a unit test run the same test with the same settings", "statement": "For every test listed in the scripts unit_test_tsp.sh, unit_test_ksat.sh and unit_test_kc_mwm.sh and all settings of the script that are well formed (whole numbers, decimal fractions, comma-separated lists, FILT_FLAG not empty), the Python program, which gets the settings as options, and the C++ program, which gets them as environment variables, both start the functions belonging to that test, once, and every size, list of capacities, number of iterations and filtering switch that both use has the same value, the one the script says. Any other test name starts no test in either program. The whole-run TSP tests draw a symmetric graph iff SYM_FLAG=true. False in full generality: with an empty FILT_FLAG only the C++ half filters; the C++ half accepts capacity lists at which the Python half stops; TYPE_METRICS=0 (unbiased) of the K-SAT script gives biased metrics.", "quantifier": "all test names and all values of the shell variables", "why_tests_cant": "It is about the tests themselves: a unit test whose halves run with different settings compares unrelated numbers, or passes without having tested anything; the scripts run with one set of settings only.", "anchors": ["test/src/unit_test_tsp.sh", "test/src/unit_test_ksat.sh", "test/src/unit_test_kc_mwm.sh", "test/src/impalib_unit_tests_tsp.cpp", "test/src/impalib_unit_tests_ksat.cpp", "test/src/impalib_unit_tests_kc_mwm.cpp", "test/python_tsp/test/impalib_unit_tests.py", "test/python_ksat/test/impalib_unit_tests.py", "test/python_kc_mwm/test/impalib_unit_tests.py", "test/include/ut_utils.hpp: take_int"]}
{"id": "C100", "title": "The reference programs obey their options and agree with the programs of the package", "statement": "For every command line with documented options, the programs test/python_tsp/src/main_tsp.py, test/python_ksat/src/main_ksat.py and test/python_kc_mwm/src/main_pure_optimized.py give every attribute of their solver object the value of the last setting of its option or else the default, read the file and name the folder that the options say, and save iff saving was asked for and the input came from a file. Run with the same settings as the programs of src/impa, they work with the same values for all common attributes, if the options whose defaults differ (alpha for TSP, randomTestFlag for K-SAT) are set.", "quantifier": "all command lines with documented options, abbreviated or not, both ways of writing a value, repeated options", "why_tests_cant": "No test starts these programs; command lines are unbounded.", "anchors": ["test/python_tsp/src/main_tsp.py", "test/python_ksat/src/main_ksat.py", "test/python_kc_mwm/src/main_pure_optimized.py", "test/python_tsp/src/graphical_model.py: GraphicalModel.__init__", "test/python_ksat/src/graphical_model.py: GraphicalModel.__init__", "test/python_kc_mwm/src/graphical_model.py: GraphicalModelKcMwm.__init__"]}
{"id": "C101", "title": "Rewards and department orders of generated KC-MWM teams", "statement": "team_reward_generation returns one reward per generated team, in the order of the teams: minus 10, plus the distance between the regions of its two departments, plus the fighter cost of the first department, plus, for types with weasels, the weasel cost of the second. Every reward lies between -10 and -3. A pair of departments is available unless, with costs, distances and kinds of meeting given by department and region, the other order is preferred. Two different departments for which both orders are of the same kind are available in one order only.", "quantifier": "all capacities of up to 11 departments, all lists of types 1 to 5, all pairs of departments", "why_tests_cant": "The rewards are replaced by loaded ones in every test, and 121 pairs of departments times five types are never all generated.", "anchors": ["src/impa/Impa.py:1241-1275", "src/impa/Impa.py:1277-1430", "src/impa/initializationModule.py:10-187"]}
{"id": "C102", "title": "When the pure Python TSP solver ends its own process", "statement": "pre_analysis of the pure Python TSP program calls exit() exactly when, in some round of augmentation, as many edges are selected as before the round, the same pairs of nodes are joined by selected edges (in either direction), and some message from edges to degree constraints is not a number. With finite costs, and a finite alpha if filtering is on, this never happens, and all messages of a run stay finite.", "quantifier": "all cost matrices of any shape with any entries, all settings, any number of rounds", "why_tests_cant": "Every test uses finite costs, for which the exit is never taken; no number of runs shows that it cannot be.", "anchors": ["test/python_tsp/src/graphical_model.py:196-215", "test/python_tsp/src/graphical_model.py:250-298", "test/python_tsp/src/main_tsp.py:167-171"]}
{"id": "C103", "title": "When the C++ TSP solver ends its process, for any inputs", "statement": "A call of the TSP solver ends its process exactly when subtours are left, augmentation is on, none of the three give-up flags is set and the selection costs 0, after the first stage or after a round below the round limit, or when the iterations of a round leave a message from edges to degree constraints that is not a number. Unlike the pure Python program it does not ask whether the selection changed, and so may end a round earlier.", "quantifier": "all inputs of the model, including infinite costs and NaN, all settings, any number of rounds", "why_tests_cant": "Ending the process also ends the test; with infinite costs no test exists.", "anchors": ["include/impalib/graphical_model.hpp:347-384", "include/impalib/graphical_model.hpp: GraphicalModelTsp::iterate_augmented_graph", "src/impa/Wrapper.cpp:89-105"]}
{"id": "C104", "title": "Rounds of the pure Python TSP solver", "statement": "With positive finite costs and at least one iteration per round the augmentation loop of the pure Python TSP program comes to an end. Once a run has ended, allowing more rounds changes nothing. A run that is in the same state after two different numbers of rounds never ends and repeats the states in between.", "quantifier": "all cost matrices, all settings, any number of rounds", "why_tests_cant": "A loop that does not end cannot be observed by a test that ends.", "anchors": ["test/python_tsp/src/graphical_model.py:196-215", "test/python_tsp/src/main_tsp.py:167-171"]}
{"id": "C105", "title": "Exceptions of the pure Python TSP solver", "statement": "A run of the pure Python TSP program with finite costs raises an exception within k rounds exactly if no iterations are asked for, if filtering is switched on with alpha 0, or if one of the rounds starts although no subtour constraint has been found so far. Which of these is the case is decided by the first stage: a constraint once found is kept.", "quantifier": "all cost matrices of at least three cities, all settings with a finite alpha and a threshold other than NaN, any number of rounds", "why_tests_cant": "The exception depends on the edges selected after any number of rounds, for any costs; a test sees it for one matrix.", "anchors": ["test/python_tsp/src/graphical_model.py:196-215", "test/python_tsp/src/graphical_model.py:250-298", "test/python_tsp/src/main_tsp.py:167-171"]}
{"id": "C106", "title": "Exceptions of the pure Python K-SAT and KC-MWM solvers", "statement": "The pure Python K-SAT solver raises an exception on an instance it has drawn exactly if it does at least one iteration and filters with alpha 0. The pure Python KC-MWM solver raises an exception exactly if it does no iteration or filters with alpha 0.", "quantifier": "all instances of two or more literals per clause, all KC-MWM instances of at least two teams and two projects, any number of iterations, any finite alpha", "why_tests_cant": "That no other instance and no later iteration raises is a statement about all of them.", "anchors": ["test/python_ksat/src/graphical_model.py:165-203", "test/python_kc_mwm/src/graphical_model.py:368-405"]}
