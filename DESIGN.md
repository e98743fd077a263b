# Formal model of IMPALIB: design

## Numbers

The code computes with C++ `double` / numpy `float64`.  The model uses exact
rationals extended with `+inf`, `-inf` and `NaN` (`theories/Num.v`), with the IEEE
rules for infinities, NaN propagation and comparisons (`NaN < x` is false, `inf-inf`
is NaN, `std::min(a,b)` is `b<a ? b : a`).  Rounding and overflow to
infinity are not part of that model; `theories/M_Float.v` has the solvers again with a
rounding function applied to every operation, and C72, C73 and C74 say when they agree with the exact
ones.  The sign of zero is not modelled (the code only compares numbers).

## Memory

`std::vector` and Python lists are Coq lists.  Every indexed read or write goes through
a checked accessor; an out-of-range access, `min_element` of an empty range or
`erase(end())` makes the whole computation `None`.  A theorem that concludes
`... = Some r` therefore also says that the C++ code has no such undefined behaviour on
those inputs.

## Specification of message updates

A message update is correct when it computes the *min-sum message* of its constraint:
for a constraint given by the set of allowed 0/1 configurations and incoming messages
`m`, the message to position `i` is (least total of `m` over the other positions among
allowed configurations with `x_i = 1`) minus (the same with `x_i = 0`).  This one
definition (`theories/MinSum.v`) is used for every constraint; it mentions no code.

## Vocabulary of the statements

These files define the words the theorems are stated in.  They mention no code; a reader who
wants to know what was proved reads them and the theorems in the `T_` files.

| File | Words |
|---|---|
| Spec.v, SpecRun.v | shapes of arrays, injection of finite numbers, sums, well-formed clauses, the effect of the filter |
| MinSum.v | min-sum messages, the constraints "exactly one", "at most one", "at least one", all equal, clause, capacity |
| SpecGraph.v, SpecTour.v, SpecCover.v | paths, cycles, tours, cuts, lengths, cycle covers of a cost matrix |
| SpecKc.v, SpecSelection.v | departments, teams, capacities, matchings and their value |
| SpecCnf.v, SpecCli.v | DIMACS files, command lines |
| SpecForest.v, SpecAcyclic.v | formulas without cycles (two definitions, proved equivalent in C58_acyclic) |
| SpecSettled.v | fixed points of the messages |
| SpecView.v, SpecUnfold.v | what a variable sees within a distance, the unfolded model |
| SpecRange.v, SpecLiterals.v, SpecWithin.v | ranges of rewards, occurrences of literals, numbers that differ by at most e |
| SpecRound.v | rounding functions, binary floating-point numbers |

## Plan per property

- **C01** Degree messages are the exact min-sum messages of 'exactly one edge out / exactly one edge in': Model of the double loop with explicit arrays (out-of-range access = failure). Spec: generic min-sum marginal over all 0/1 configurations. Proof: loop invariants, then minimum over 'exactly one' configurations.
- **C02** Subtour-elimination messages are the exact min-sum messages of 'at least one edge leaves the set': Same technique, 'at least one' configurations.
- **C03** Project messages are the exact min-sum messages of 'at most one team per project': Same technique, two-state trellis, 'at most one' configurations.
- **C04** Team-to-project coupling messages (towards projects) are exact: Same, coupling constraint with a team variable and project variables.
- **C05** Team-to-project coupling messages (towards teams) are exact: True only below the sentinel: full statement refuted by a witness, bounded version proved as _partial.
- **C06** Knapsack messages are the exact min-sum messages of the department capacity: Model of forward/backward/extrinsic including the gap-filling code; invariant: stage tables hold optimum over prefixes/suffixes; spec over subsets within capacity.
- **C07** Team messages to a department are the sum of everything else known about the team: Model of set_intersection/find/erase; proved for teams in at most two departments, refuted (erase(end), i.e. undefined behaviour) for three.
- **C08** Clause messages are the exact min-sum messages of 'at least one literal is true': Trellis model; spec over assignments with at least one true literal.
- **C09** Variable messages to a clause exclude that clause: Array model; sum over all other clauses.
- **C10** Edge messages to a degree constraint exclude that constraint: Array model; sum of the other incoming messages.
- **C11** Edge messages to a subtour constraint exclude that constraint: Array model; sum of the other incoming messages.
- **C12** Filtering is an exponential blend and stays within the range of past messages: Closed form by induction over the history; convexity bound.
- **C13** TSP message passing never produces infinities or NaN and never reads out of range: Invariant over iterations: all message matrices finite and of the right shape.
- **C14** KC-MWM message passing never produces infinities or NaN and never reads out of range: Invariant over iterations.
- **C15** K-SAT message passing never produces infinities or NaN and never reads out of range: Invariant over iterations.
- **C16** Loops reported are real directed cycles: Fuelled DFS model; soundness by induction.
- **C17** A loop is reported exactly when the selected edges contain a directed cycle: Completeness of DFS: simple path exists -> found.
- **C18** A reported tour is a Hamiltonian cycle of selected edges: From C16 plus pigeonhole.
- **C19** Reported TSP cost is the cost of the selected edges, and of the tour when a tour is reported: First half by induction; second half refuted by a chord witness.
- **C20** Every added subtour constraint is the set of edges leaving the loop, is non-empty and is added once: Invariant over the history of analyses.
- **C21** No added subtour constraint excludes a Hamiltonian tour: A closed walk through all nodes must leave every proper non-empty set.
- **C22** Every reported proper subtour violates the constraint added for it: Direct from the definition of the cut.
- **C23** The augmentation loop respects its limit: Bound by induction on rounds; refuted for non-positive limit.
- **C24** Failure flags are raised only after more than maxCount consecutive events: History invariant on the counters.
- **C25** Output buffers passed to the C++ library are large enough: Model of sizes; refuted for the selected-edge buffer, proved for the tour buffer.
- **C26** Results survive the flat-array hand-over: Round-trip lemmas on flat lists.
- **C27** TSP post-processing always returns a Hamiltonian tour: Model of the Python post-processing (M_Tsp_Post): degree trimming, subtour breaking, path search, joining of paths, missing nodes, k-opt. Result is a permutation of the nodes whatever the selection (C27_tour); what the tour is made of (C27_structure, C27_removed); failure on a selection where trimming removes every edge (C27_returns_refuted); returns for selections of degree at most one (C27_returns_partial); complete calls (C27_answer, C27_call_returns_partial).
- **C28** k-opt keeps the tour valid and never makes it worse: Index combinations in itertools order; the simultaneous assignments of every combination move the chosen nodes on cyclically, hence a permutation for every k; best-of-candidates invariant for the passes.
- **C29** Missing nodes are inserted exactly once: Induction over the rounds of the greedy attachment; relation grown in SpecTour.
- **C30** Hard decisions are threshold decisions: Pointwise, with NaN: edges selected (select_edges), variables active (get_summary), pairs matched. KC-MWM is refuted at equality and for positive thresholds; exact rule proved for both signs.
- **C31** Generated team data is aligned across departments: Model of team generation (M_Kc_Py). Refuted for a kind of team that does not fit; aligned exactly when every sensible kind fits (C31_aligned_iff); then weights, types, location and capacity facts (C31_aligned_partial).
- **C32** Capacity repair ends with every department within capacity: Loop invariant (selection increasing, locations and weights those of the selection); number of selected teams as measure; relation removals in SpecKc says which team goes in each round. 'Only teams of an over-full department' is refuted on ties and proved for different values.
- **C33** Team-reuse repair ends with every team matched at most once: Same invariant for the candidates of option 2. Reporting of reused teams: fold invariant of reuse_step; one-project and lowest-value claims refuted, partial when no project is matched twice.
- **C34** A formula is reported satisfied exactly when every clause has a true literal: Equivalence with clause semantics.
- **C35** Generated K-SAT instances are well formed and satisfiable: Random choices as an oracle list; invariant over the clauses kept. The requested count is refuted (duplicates are dropped).
- **C36** K-SAT post-processing never increases the number of unsatisfied clauses: Refuted by a witness where the second stage compares with a stale count; partial: at most one violated clause, and stages one and three.
- **C37** K-SAT post-processing reports the assignment it ends with: Invariant on the state after post-processing.
- **C38** Arguments reach the C++ entry points they are meant for: Model of argument classification and of register/stack placement as an arbitrary pair of register counts; the argtypes lists and the C++ signatures as data; delivery proved generically, refuted for placement by position.
- **C39** The pure Python implementation and the C++ library compute the same messages: Models of the Python updates with numpy operations as failing functions; both sides shown equal to the same closed form or to the same min-sum message, which is unique; differences refuted by computed witnesses.
- **C40** Re-running the solvers does not depend on hash order: Refuted by a witness with two orders.
- **C41** The similarity score is a fraction: Counting argument.
- **C42** Output matrices are laid out row by row: Index arithmetic.
- **C43** Team and project messages to the coupling constraint: Array model; sums.
- **C44** A solver call always comes back to Python: Refuted by a run that selects nothing; partial: only such runs exit.
- **C45** The reported number of added constraints is the number of constraints in the model: Invariant: number of message rows = number of constraints at the head of each round; refuted at the limit.
- **C46** Every finite cost matrix with a zero diagonal is handed over completely: Counting of non-zero entries; refuted for every matrix with a zero off the diagonal.
- **C47** A complete K-SAT call succeeds and reports the truth about its result: Composition of the generator lemma, C15 and C37.
- **C48** The first K-SAT iteration starts from the metrics: Loop invariants over the two nested loops.
- **C49** A K-SAT call computes the min-sum schedule of its formula: The loop as a sequence of states (run_seq), the step equations per iteration, filtering over the history in closed form.
- **C50** A KC-MWM call computes the min-sum schedule of its model: Same as C49 over the nine kinds of messages of one iteration.
- **C51** Every stage of a TSP call computes the min-sum schedule of its current model: Same as C49 for the relaxed stage and for each augmented round; invariants over the list of rounds: entries outside a constraint stay zero, rows only get appended.
- **C52** Pruning keeps a usable pair for every two departments: Reflection: finite tables, all sizes up to 11 computed; lookup failure for 12 and more.
- **C53** A complete KC-MWM call reports teams within capacity: Composition of C14, C26, C31-C33 with the reshaping of the arrays returned by the wrapper.
- **C54** Counters returned by WrapperTsp are read back exactly: Bytes of a cell as base-2^32 halves; store 4 bytes, read 8.
- **C55** Whole runs of the pure Python solvers and of the C++ library agree (K-SAT, KC-MWM): Simulation between the run models: related states (Python full matrices, C++ flat or sparse ones) are preserved by one iteration, using the single-update agreement lemmas of P_PyRef*.v and uniqueness of min-sum messages.
- **C56** Whole runs of the pure Python TSP solver and of the C++ library agree: Simulation between the two whole-run models: related states are preserved by one message iteration (single-update agreement plus uniqueness of min-sum messages and zeros off the edges), by the hard decision, by the loop search (same loops up to rotation by one) and by the growth of the constraint arrays; induction over rounds.
- **C57** The result of a TSP call does not depend on the iteration order of the hash map: Two runs whose constraint lists are permutations of each other: the round schedule of C51 determines all messages (uniqueness of min-sum messages), column sums are invariant under permutation; loops of graphs with separate cycles are the same up to rotation; induction over iterations, then rounds.
- **C58** On formulas without cycles the K-SAT solver is exact and finds the cheapest satisfying assignment: Abstract min-sum schedule on a forest of constraints, costs may vary over time in the target variable; induction over the forest, adding one constraint that meets the others in one variable (three cases: towards that variable, towards a new variable, towards any other). Connected to the code by C49 and C47.
- **C59** The first stage of a TSP call finds the cheapest cycle cover, and the cheapest tour if that cover is a tour: Messages by pairs of nodes from C51. Potentials with slack eps/n by longest simple walks in the exchange graph (a closed walk exchanges successors, giving another cover, so its weight is at most 0). Invariant: messages minus potentials of matched and unmatched pairs move apart by (1-a)eps/n per iteration. Then C16, C17 and the analysis for the tour.
- **C60** Symmetries of the first stage of a TSP call: The messages of the first stage are determined by the recursion (minimum attained and a lower bound); induction over the iterations with rows and columns exchanged, renamed or scaled.
- **C61** On formulas without cycles the filtered K-SAT solver converges to the exact answer: Rank of a message on a forest (higher than the ranks of the messages it is computed from); without filtering messages of rank r are constant after r+1 rounds, with filtering each converges by induction on the rank: min-sum messages are Lipschitz in their inputs, the filter is a contraction towards its input, a^k <= 1/(1+k(1-a)). The limits are the exact messages by forest_exact (C58). Decisions: finitely many strict inequalities.
- **C62** The K-SAT solver respects renaming, sign flips and scaling: Both runs are filtered schedules of min-sum messages (run_fsched). A bijection with sign flips maps satisfying assignments of a clause to those of the other, the sum of the incoming messages changes by the factor and a constant, so each message changes by the signed factor (msg_sym); the filter and the variable sums are linear; induction over the iterations (fsched_sym).
- **C63** DIMACS files: what is written is read back, and files are read as the formula they describe: Decimal notation by induction over the digits; words and lines are recovered by the character loops; invariant of the line loop: after m clauses the lists are those of the first m clauses.
- **C64** The MiniSat comparison reports a formula as satisfied exactly if the model satisfies it: The variable view lists exactly the occurrences (C63), so the clauses reached from true literals are the satisfied ones.
- **C65** Command line options reach the solver object: Readers of numbers agree with the notation; a name or abbreviation resolves to its option; induction over the settings: the last one is found first in the namespace; then the chain option - local variable - parameter - attribute is evaluated with symbolic values.
- **C66** The unit of the costs does not matter: A relation between the numbers of two runs that all operations respect (P_Param.v) is carried through every function of the three solvers and of the Python post-processing; scaling is an instance. For KC-MWM the running minimum from the constant equals the one from infinity when it ends below the constant.
- **C67** TSP instances are complete graphs with the drawn costs, and stored instances are read back unchanged: Model the numpy functions on square matrices as tables; compute the entries; show that the edge list of a matrix with zero diagonal and no other zero is the filtered product of the nodes. Files are lists of tagged entries read by position.
- **C68** K-SAT metrics are drawn as documented, and stored instances are read back unchanged: One loop lemma for the metrics; the sign of mean plus deviation decides the threshold decision; C35 gives that the planted assignment satisfies the formula; the object built from the file is compared with the drawn one; C47 describes the run.
- **C69** The numbering of teams, projects and departments does not matter to a KC-MWM call: Min-sum messages are invariant under a permutation of the variables that respects the constraint (P_MinPerm.v). Both calls compute the min-sum schedule (C50); by induction over iterations and by uniqueness of min-sum messages all messages correspond. Participants of a department are matched by the permutation of their positions that the renumbering of teams induces.
- **C70** KC-MWM finds the best selection when scarce departments count teams: With counting departments the problem is a bipartite assignment problem with group capacities; unique optimality gives dual prices with slack (exchange argument on cycles and paths, shortest-path potentials: P_Potential.v, P_Kc_Dual.v). Each family of messages is compared with the price that it should exceed or stay below; the min-sum rules preserve the comparison with a margin that grows by a fixed amount per iteration until it saturates (P_Kc_Messages.v, P_Kc_Best.v). The call follows from C53. Refutations are computed.
- **C71** What the K-SAT post-processing repairs: Loops with break in which every attempt either leaves the decisions as they are or lowers the count: the loop lowers it as soon as one attempt in its list would lower it from the decisions at the start. The literal is in the list of shared literals (first stage); the setting is among the combinations and products (third stage); with one violated clause the first stage does nothing and the second one repairs or does nothing. Second stage: the list of clauses of interest is exactly the clauses that lean on the violated one (of_interest_iff); a clause that shares only the flipped variable would be broken by the flip, so the rule about single overlaps removes nothing that helps.
- **C72** TSP calls in floating-point arithmetic: Partial-correctness logic 'same': the rounded and the exact program are equal and the result satisfies a predicate. Predicate: whole multiple of the unit of bounded size, or not finite. Sums and differences of such numbers are again such numbers, so rounding leaves them alone as long as the bound fits the significand; one lemma per message update, induction over iterations (bounds grow linearly with iterations in the relaxed stage) and rounds (bound on the exact run). Round to nearest, ties to even, is shown to be such a rounding function (nearest_keeps).
- **C73** K-SAT calls in floating-point arithmetic: Same logic as C72. Trellis tables get a bound per row (stage times the bound of the messages), one clause message is within 2k times the bound, one variable message within the number of its clauses times that plus the metric; induction over the iterations.
- **C74** KC-MWM calls in floating-point arithmetic: Same logic as C72. Knapsack trellis tables get a bound per stage, the inequality-constraint trellis and the running minimum (initially 10^6) a bound per message; kc_round bounds what one iteration makes of its messages; induction over the iterations.
- **C75** Which edges the TSP post-processing removes: The minimum found by np.argmin is a minimum (argmin_min). The loop over one side of a node keeps the set of edges removed there below all others; sides of nodes are disjoint where they matter, so the order of the nodes does not matter.
- **C76** A KC-MWM call with post-processing reports a feasible selection and the printed totals are its value: Two teams of one project cannot both have a negative sum of messages, because the message of the project constraint to one is at least minus the message of the other (project_facts with C50). So the projects of matched pairs are distinct, and the pair kept for a reused team identifies its project. The loop over the matched pairs adds every remaining team once; its order is a permutation of the remaining teams.
- **C77** Settled K-SAT messages give a satisfying assignment that is locally cheapest: General argument in P_Settled.v for variables, constraints and min-sum messages: the difference of the two cheapest completions of a variable in a constraint is the belief up to e, so the decisions are the cheapest allowed configuration of every constraint, and a configuration that differs at v costs at least the margin of v minus e more. Summing these inequalities over the live constraints, each charged to its owner, and exchanging the sums leaves at most one unpaid constraint for every differing variable. Formulas without cycles are loose with any root (induction over the forest). The messages of a call are tied to the schedule by C49 and uniqueness of min-sum messages.
- **C78** Settled TSP messages give locally cheapest cycle covers and tours: The general argument of P_Settled.v with three kinds of constraints: a node is left once, entered once, and every subtour constraint is crossed. P_Tsp_Settled.v turns allowed assignments into covers and hands the constraint of a left node to the competitor's edge, that of an entered node to the own edge, so every exchanged edge pays for all its constraints but one. Subtour constraints with several exchanged edges are left out and their messages are added to the costs instead (settled_charged).
- **C79** Settled KC-MWM messages give a locally cheapest selection: The general argument of P_Settled.v with variables for teams and pairs and three kinds of constraints: departments, projects and the coupling of a team with its pairs. P_Kc_Settled.v turns allowed assignments into selections; the constraint of a team goes to the competitor's pair, that of a project to the own pair, a department to its only exchanged team, and departments with several exchanged teams charge their messages. The message from the coupling constraint to its team does not depend on the team's own message (message_first), which makes it exact.
- **C80** What a K-SAT output depends on: Two filtered schedules (P_Forest_Limit.v) compared by induction on the iteration: messages into a clause agree on variables that look alike (branch), messages out of a clause agree because assignments can be carried over along the pairing of the other variables (transfer, lmsg_alike in P_Ksat_View.v). Locality and coverings supply the pairings. For trees, messages no longer change once the formula has ended (ends_settled), so C58 applies.
- **C81** The K-SAT solver is exact on the unfolding of every formula: Induction on the number of steps (P_Unfold.v): a message into a clause is the difference of the cheapest labellings of a branch. A cheapest labelling around a variable is put together from an optimum of every clause and cheapest labellings of the branches beyond (least_clauses), where only finitely many choices are needed (finite_choice).
- **C82** The first TSP stage is exact on the unfolding of the cycle-cover model: The schedule of the first stage (stage_values, shared with C60) is put as a schedule over the network whose variables are the edges and whose constraints are the rows and columns: the message of a row is the optimum over the choices of exactly one edge (one_message). Then the induction of C81 (P_Unfold.v) applies.
- **C83** The search for a closed loop of a given length ends, and returns only cycles of that length: The recursion is compared with that of the C++ search (P_Tsp_Loops.v); the shared list of visited nodes never meets a set that no edge enters from outside unless a walk starts in it, and with one entering edge per node every cycle is such a set.
- **C84** The pure Python K-SAT object draws satisfiable instances and reports what the library reports: The step that adds a clause (keep_ok, P_Ksat_Gen.v) is shared with the generator of the library (C35). The runs agree by C55, whose proof is restated for any formula with consistent views (ksat_runs_agree); the report is that of C34.
- **C85** The pure Python KC-MWM object gives the library's answer; its printed weight counts a reported pair once per match of its team: The runs agree by C55, restated so that the shape of the Python result is known (kc_runs_agree). The loop over the matched pairs is summed and regrouped by team; the pairs of the reported selection come from C76 (summary_parts).
- **C86** The self-check of the team output compares two orders of summation: Loop invariants for the two sums and the comparison; exactness of partial sums on a grid.
- **C87** What the verdict of a unit test says about the two arrays: numpy maxima of finite lists and of lists with NaN; the loop over the files keeps the two lists of errors zero or non-zero together, so both comparisons of any(...) with a tolerance have the same outcome.
- **C88** What the demonstration programs print: K-SAT: the schedule of C49 for this formula; messages that compete with a negative cost vanish, the two remaining ones are constant and geometric, and filtering is solved in closed form. KC-MWM: the state after ten steps is a fixed point of the step (computed), the cheapest selection by enumeration. TSP: computed equality of the arrays, then C13.
- **C89** The unit tests of single steps pass whatever they draw: Agreement of the steps (C39), reading back of what was stored (C26), the loops that clear entries keep only the ends of an edge or the variables of a clause, and an array agrees with itself for check_agreement.
- **C90** The unit tests of the knapsack steps pass whatever they draw: Both passes write the rows of one recursion over the teams (gaps copied), the extrinsic row is the same function of the tables, team to knapsack and filtering by C39, reading back by C26, verdict by C87; the generator puts equally long blocks into all departments when there is room.
- **C91** The unit tests of whole runs pass whatever they draw: The files hold what the objects compute from the draws (C84, C67, C90); then the whole runs agree by C55 and C56, the order of the hash map does not show in the relaxed stage, KC-MWM messages stay below the constant by C92; verdict by C87.
- **C92** With moderate rewards a KC-MWM call computes the min-sum schedule without any cut-off: Invariant: (filtered) messages of departments are at least 0, so a pair of another team keeps at least its rewards and the message of the project of the hypothesis is at most c in every iteration (kc_step_bound); then C50.
- **C93** The outputs of a KC-MWM call stay in a range that does not depend on the number of iterations: Ranges of every message in terms of B only, by one pass through an iteration; the filter is a convex combination for factors in [0, 1]; departments add at most the total of the weights.
- **C94** How far K-SAT outputs can grow is governed by the occurrences of literals: A clause pushes a variable only towards its literal, by at most the cheapest of its other literals; so the part of a message that matters to a clause adds up over clauses with the opposite literal only. Induction over the iterations with C49. Attained: clauses 'not a or b' for all ordered pairs, invariant of the messages.
- **C95** How far the values of the first TSP stage can grow: A degree constraint sends the negated cheapest of the other edges, so a range [l, h] of messages becomes [-(hi+h), -(lo+l)] in the next iteration; the filter is a convex combination. Three cities: the edges around the hexagon alternate and every message is at an end of the range; induction over the iterations.
- **C96** No pair is matched that costs more than leaving it out: Lower bounds for all messages as in C77 (the knapsack messages are nonnegative, the project inequality messages nonnegative); the value of a pair is the sum of its cost and nonnegative messages. Transfer to kc_call with C53.
- **C97** Variables that occur with one sign only are decided by their sign: C94 with a bound large enough for the given metrics and messages: with no occurrence of one sign the bound on that side is 0. Transfer to py_ksat_run with C47.
- **C98** Small changes of the inputs change the outputs little: A clause message is, up to sign, the larger of 0 and the least cost of the other literals, hence changes by no more than its inputs; a degree message is a negated minimum. Sums multiply by the number of summands, filtering with a factor in [0, 1] by at most 1. Induction over iterations for both runs together. KC-MWM: a department message is a difference of two minimal costs, hence changes by at most 2T times its inputs; the coupling and project messages are maxima.
- **C99** The two halves of a unit test run the same test with the same settings: Option parsing as in C65: the words --option=$variable give every option the value its variable says. atoi and the stream extraction of take_int read the same decimal numbers. The dispatch on the closed test names is computed; the rows of the theorem tables say which argument corresponds to which constant.
- **C100** The reference programs obey their options and agree with the programs of the package: argparse model and table technique of C65. Attributes of both objects are what the settings say; what a word means is unique, so equal kinds and defaults give equal attributes; the comparison of the tables is a computation.
- **C101** Rewards and department orders of generated KC-MWM teams: The value of a team is stated by regions; the tables agree with it (finite check over departments and types). The rewards follow by induction over types and combinations: placing entries leaves the rewards alone. Orders: finite check for each number of departments up to 11.
- **C102** When the pure Python TSP solver ends its own process: Induction over the rounds; the test of a round is stated with sets of pairs. Finite costs: every update maps finite entries to finite entries, whatever the shapes, so no NaN appears.
- **C103** When the C++ TSP solver ends its process, for any inputs: Induction over the rounds of the augmentation loop; growing the subtour messages changes neither flags nor cost.
- **C104** Rounds of the pure Python TSP solver: Running a+b rounds is running a and then b. A repeated state gives a period, and strong induction gives a running state for every number of rounds. The witness is computed.
- **C105** Exceptions of the pure Python TSP solver: The first iteration divides by alpha or reads what the loop left behind, and the column sums of no rows fail; otherwise the shapes and finiteness of the arrays are an invariant of the rounds, also with an empty constraint, whose row stays 0 (P_PyRef_Raise.v).
- **C106** Exceptions of the pure Python K-SAT and KC-MWM solvers: The filter has no branch for alpha 0, so the first iteration raises; without iterations the KC-MWM solver reads an attribute that does not exist. Otherwise the K-SAT run equals the run of the library (C55), and shapes and finiteness of the KC-MWM messages are an invariant of its iterations, for any numbers of teams and projects.

## Trusted base

- The Coq 8.16.1 kernel (and `coqchk` run at the end).
- No axioms are added; `Print Assumptions` is printed under every property theorem.
- Every property theorem is closed under the global context: no standard library axiom is
  used either.  `coqchk` lists seven `Under_rel` entries of `ssr.ssrunder`; they are fields
  of a module type in the standard library, pulled in by the decision procedures, and no
  theorem depends on them.
- The virtual machine (`vm_compute`) is used for concrete examples and witnesses.
- The reading of `/repo` recorded in the comments of the model files.

## What is modelled

| Code | Model file |
| --- | --- |
| update_degree_constraint.hpp, subtour_elimination_constraint.hpp | M_Tsp_Constraints.v |
| update_equality_constraint.hpp (all three solvers) | M_Equality.v |
| knapsack.hpp | M_Knapsack.v |
| project_inequality_constraint.hpp, or_inequality_constraint.hpp (headers as named in the file comments) | M_Kc_Trellis.v |
| update_ksat_constraint.hpp | M_Ksat.v |
| process_filtering of every constraint class | M_Filter.v |
| input_output.hpp (reading of inputs, outputs) and the ctypes packing in Impa.py | M_InOut.v |
| whole runs of KC-MWM and K-SAT | M_Runs.v |
| get_closed_loops, find_closed_loop | M_Tsp_Loops.v |
| find_loops, get_loops (Impa.py:998-1073, called by no other method) | M_Tsp_GetLoops.v |
| whole TSP run: relaxed model, hard decision, analysis, augmentation loop, WrapperTsp | M_Tsp_Run.v |
| arrays built by Impa.py for the TSP call | M_Tsp_Py.v |
| Impa.py GraphicalModelKsat: create_model_structure, initial messages, hard decision, summary, post-processing, similarity | M_Ksat_Py.v |
| Impa.py GraphicalModelTsp 355-950: reading of the results, post-processing, k-opt, missing nodes | M_Tsp_Post.v |
| Impa.py ImpaKcMwm 1137-2232 and the tables of initializationModule.py: pruning, team generation, matching, post-processing, results | M_Kc_Py.v |
| Impa.py ImpaKcMwm 1694-1796, 2124-2232: totals printed before and after post-processing | M_Kc_Summary.v |
| cFunctionAPI.py argtypes, the three foreign calls in Impa.py, the parameter lists of Wrapper.cpp, scalar result cells | M_Abi.v |
| pure Python updates: test/python_tsp/src (degree, subtour, equality, filtering, outputs) | M_PyRef.v |
| pure Python updates: test/python_kc_mwm/src (knapsack, project, OR-inequality, equality, outputs) | M_PyRef_Kc.v |
| pure Python updates: test/python_ksat/src (clauses, equality, outputs) | M_PyRef_Ksat.v |
| pure Python runs: initial messages, iterations and outputs of python_ksat and python_kc_mwm graphical_model.py | M_PyRef_Run.v |
| pure Python TSP run: test/python_tsp/src/graphical_model.py initialisation, relaxed and augmented iterations, hard decision, closed loops, subtour analysis, rounds (not: printing, reference solvers, saving, open paths) | M_PyRef_Tsp.v |
| pure Python K-SAT object: loading, generator, decisions and report (python_ksat graphical_model.py:33-69, 118-163, 195-226; not: printing) | M_PyRef_Object.v |
| pure Python KC-MWM object: the whole call and its printed totals (python_kc_mwm graphical_model.py:32-142, 368-825, main_pure_optimized.py:35-47; not: other printing) | M_PyRef_Summary.v |
| self-check of the team output (test/src/test_EOP/test_EOP.cpp:33-80; random numbers are arguments) | M_Test_EOP.v |
| Instances: Impa.py create_cost_matrix, generate_incoming_metrics, initialize of GraphicalModelTsp and GraphicalModelKsat in both modes; generate_inputs.py of python_tsp and python_ksat (not: pickling, the distributions) | M_Instances.v |
| test/python_ksat/src/process2cnf.py create_cnf_file; run_minisat.py read_cnf_file and the evaluation of the model (not: the MiniSat solver, pickling) | M_Cnf.v |
| src/impa/main_tsp.py, main_ksat.py, main_kc_mwm.py: options, constructor calls, constructors (Impa.py 71-105, 1138-1152, 2236-2265), folders and files; argparse as far as these programs use it (not: exponents and special values of numbers, the word "--") | M_Cli.v |
| test/python_{tsp,ksat,kc_mwm}/test/ut_utils.py check_agreement and check_forward_backward_results (not: reading the files, the texts) | M_Test_Check.v |
| examples/{Ksat,KcMwm,Tsp}/demo.cpp (decimal literals exact; not: formatting of numbers) | M_Demo.v |
| the unit tests of single steps, test/python_{tsp,ksat,kc_mwm}/test/{impalib_unit_tests,ut_*}.py with test/include/ut_*.hpp (random numbers given) | M_Unit_Tests.v |
| the unit tests of the knapsack steps and the teams they generate, test/python_kc_mwm/test/{ut_knapsack,ut_utils}.py with test/include/ut_knapsack.hpp | M_Unit_Knapsack.v |
| the unit tests of whole runs, test/python_*/test/ut_graphical_model.py with test/include/ut_graphical_model.hpp | M_Unit_Runs.v (64-bit integers in files taken to fit 32 bits) |
| what starts the unit tests: test/src/unit_test_{tsp,ksat,kc_mwm}.sh, test/src/impalib_unit_tests_*.cpp, options and dispatch of test/python_*/test/impalib_unit_tests.py, environment variables read in test/include/ut_*.hpp, take_int | M_Unit_Driver.v |
| test/python_tsp/src/main_tsp.py, test/python_ksat/src/main_ksat.py, test/python_kc_mwm/src/main_pure_optimized.py: options, constructor calls, constructors, folders and files, methods called (argparse as in M_Cli.v) | M_Cli_Ref.v |
| rounding of every addition, subtraction and multiplication in the message passing of the three solvers (same functions as in M_Equality, M_Filter, M_Ksat, M_Kc_Trellis, M_Knapsack, M_Tsp_*, M_Runs, M_Tsp_Py; not: the pure Python solvers and the post-processing) | M_Float.v, SpecRound.v |

## What is not modelled

- The sign of zero; overflow of `int`; rounding outside M_Float.v. M_Float.v assumes that every operation is rounded to `impalib_type` (no extended precision, no fused multiply-add, no `-ffast-math`).
- printing (except the totals of M_Kc_Summary.v and M_PyRef_Summary.v and the verdicts of M_Test_EOP.v and M_Test_Check.v), timing, reading and writing of files (except the text of DIMACS files, M_Cnf.v), the random number generators
  (their results are arbitrary parameters where they matter).
- The iteration order of `std::unordered_map` and of Python sets is an arbitrary permutation parameter.
- ctypes and the calling conventions are modelled from their documentation (M_Abi.v); the wrapper models of the other files start from arguments that arrived as C38 says.
