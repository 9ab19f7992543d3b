{"id": "C01", "title": "Linear expressions denote the linear function the user wrote", "statement": "An expression built from variables and numbers with +, -, unary minus, * by a number and / by a nonzero number evaluates, under every assignment of the variables, to the value of the formula the user wrote, and lists every variable at most once.", "quantifier": "every finite operator tree over variables and rational constants, every assignment", "why_tests_cant": "the set of operator trees and assignments is infinite; a lost or doubled coefficient shows only for particular overlaps of variables", "anchors": ["printemps/model_component/expression.h: operator+,operator-,operator+=,operator-=,operator*=,operator/=,evaluate", "printemps/model_component/expression_binary_operator.h"]}
{"id": "C02", "title": "Expression bounds enclose every reachable value and are attained", "statement": "For every assignment that respects the variables' bounds (and the values of fixed variables), lower_bound() <= value <= upper_bound(), and both ends are attained by some such assignment.", "quantifier": "every expression, every vector of bounds/fixings, every admissible assignment", "why_tests_cant": "presolve decisions rest on the enclosure for all assignments, of which there are exponentially many", "anchors": ["printemps/model_component/expression.h: lower_bound, upper_bound"]}
{"id": "C03", "title": "Incremental expression value equals recomputation after any history of moves", "statement": "After update() followed by any sequence of moves applied through update(move) and written to the variables, the cached value of an expression equals the value recomputed from scratch, provided no move names one variable twice.", "quantifier": "every expression, every initial assignment, every finite sequence of moves", "why_tests_cant": "drift appears only after particular histories; tests replay a handful", "anchors": ["printemps/model_component/expression.h: evaluate(move), update(move)", "printemps/utility/fixed_size_hash_map.h: at"]}
{"id": "C04", "title": "Solving for and substituting a variable preserves the solution set", "statement": "If an equality expr = 0 is solved for one of its variables, the returned expression equals that variable's value at every assignment satisfying the equality, and substituting it into another expression leaves that expression's value unchanged at every such assignment; the substituted variable no longer occurs.", "quantifier": "every pair of expressions, every pivot variable with nonzero coefficient, every assignment satisfying the defining equality", "why_tests_cant": "an algebraic law over all coefficient maps", "anchors": ["printemps/model_component/expression.h: solve, substitute, erase", "printemps/preprocess/dependent_variable_extractor.h: eliminate"]}
{"id": "C05", "title": "Comparison operators build the constraint that was written", "statement": "lhs <= rhs, lhs == rhs and lhs >= rhs, with expressions or numbers on either side, create a constraint whose violation is zero exactly at the assignments where the written relation holds, and otherwise is the distance to it.", "quantifier": "every pair of operands (expression/expression, expression/number, number/expression), every relation, every assignment", "why_tests_cant": "sign or operand-order slips in one of the 24 overloads show only for that overload and sign pattern", "anchors": ["printemps/model_component/constraint_binary_operator.h", "printemps/model_component/constraint.h: evaluate_violation"]}
{"id": "C06", "title": "Constraint value, violation and margin stay consistent over any history of moves", "statement": "After update() and any sequence of update(move), the stored constraint value, violation and positive/negative parts agree with a from-scratch evaluation, violation is never negative, and is_feasible() holds exactly when the violation is below the tolerance.", "quantifier": "every constraint, every initial assignment, every move sequence", "why_tests_cant": "history dependent", "anchors": ["printemps/model_component/constraint.h: update, update(move), is_feasible"]}
{"id": "C07", "title": "Every constraint gets exactly one structural type, independent of map iteration order", "statement": "setup_constraint_type() always terminates with exactly one type flag set, whatever the flags were before, and the type does not depend on the iteration order of the coefficient map; nor does the key variable, provided the variables have distinct names.", "quantifier": "every constraint, every prior flag state, every permutation of the coefficient map", "why_tests_cant": "the order of std::unordered_map<pointer,...> varies with the allocator; tests see one order", "anchors": ["printemps/model_component/constraint.h: setup_constraint_type, clear_constraint_type, type"]}
{"id": "C08", "title": "A constraint's structural type describes its solution set", "statement": "The type assigned to a constraint implies the corresponding combinatorial meaning for every 0/1 (or integer) assignment: e.g. exclusive-or holds iff exactly one of the two is 1, set partitioning iff exactly one is 1, set packing iff at most one, set covering iff at least one, cardinality/invariant knapsack/multiple covering iff the count is =/<=/>= k, inverted/balanced integers iff y=-x / y=x.  (Trinomial exclusive-nor does not: the constant term is not inspected.)", "quantifier": "every constraint receiving the type, every assignment of its variables", "why_tests_cant": "the semantic claim ranges over all assignments and all sizes", "anchors": ["printemps/model_component/constraint.h: setup_constraint_type"]}
{"id": "C09", "title": "Variables keep value, bounds, sense and margins consistent under any operation history", "statement": "Starting from a fresh variable, after any sequence of set_bound/reset_bound/fix/unfix/fix_by/set_value_if_mutable/set_value/setup_sense calls, the reported lower (upper) margin flag says whether the value is above the lower (below the upper) bound, lower_bound <= upper_bound, the 0/1 sense is reported exactly for bounds inside [0,1], a fixed variable's value only changes through fix_by/set_value_force/set_bound, set_value on a fixed variable throws, and set_bound rejects crossed bounds and otherwise clamps the value. (Exception: re-evaluating a dependent variable with update() changes its value without refreshing the margin flags.)", "quantifier": "every finite sequence of public operations with arbitrary arguments", "why_tests_cant": "history dependent state machine", "anchors": ["printemps/model_component/variable.h: set_bound, reset_bound, fix, unfix, fix_by, set_value, set_value_if_mutable, update_margin, setup_sense_binary_or_integer"]}
{"id": "C10", "title": "Multi-dimensional indices and flat indices are inverse bijections", "statement": "For every shape with positive extents, flat_index and multi_dimensional_index are mutually inverse between in-range index vectors and 0..size-1, distinct in-range index vectors address distinct elements.", "quantifier": "every number of dimensions, every shape, every index vector", "why_tests_cant": "unbounded number of dimensions and extents", "anchors": ["printemps/multi_array/abstract_multi_array.h: compute_strides, flat_index, multi_dimensional_index"]}
{"id": "C11", "title": "Fast evaluation of a one-variable move equals full evaluation", "statement": "For a move changing one variable, the incremental evaluator returns the same objective, total violation, local and global penalty, augmented objectives, feasibility flag and objective-improvement flag as evaluating the moved solution from scratch, provided the model and the supplied current score are consistent and variables recorded as 0/1 still are. States reached by update() and moves are consistent. (The feasibility-improvable hint is a constant true there.)", "quantifier": "every linear model, every consistent state, every one-variable move to any value, every penalty coefficient vector", "why_tests_cant": "the evaluator skips constraints by margin tests; a wrong skip appears only for particular coefficient/margin combinations", "anchors": ["printemps/model/model.h: evaluate_single, evaluate", "printemps/model_component/constraint.h: is_evaluation_ignorable"]}
{"id": "C12", "title": "Fast evaluation of a multi-variable move equals full evaluation", "statement": "For any move on pairwise distinct variables whose related-constraint list covers every enabled constraint those variables occur in, the incremental multi-variable evaluator returns the same score as evaluating the moved solution from scratch; exactly for integral coefficients, within 1e-10 per related constraint otherwise. The list the library builds has that property when constraint names are distinct. The feasibility-improvable hint is true exactly if some enabled constraint's violation drops by more than the tolerance.", "quantifier": "every linear model, every consistent state, every multi-variable move", "why_tests_cant": "same as C11, over sets of variables", "anchors": ["printemps/model/model.h: evaluate_multi"]}
{"id": "C13", "title": "Fast evaluation of a selection move equals full evaluation", "statement": "For a swap move inside a selection, the dedicated evaluator returns the same score (apart from the feasibility-improvable hint) as evaluating the swapped solution from scratch, whatever the order of the selection's related constraints.", "quantifier": "every linear model with selections, every consistent state, every swap", "why_tests_cant": "the merged walk over two sorted constraint lists, its early exits and the margin tests misbehave only for particular overlaps", "anchors": ["printemps/model/model.h: evaluate_selection"]}
{"id": "C14", "title": "Applying moves keeps every cached quantity of the model equal to recomputation", "statement": "After update() and any sequence of update(move), all expression values, constraint values and violations, the objective value, the list of violated constraints and the feasibility flag are those a full update() at the current variable values would produce, provided moves name each variable once, alter no fixed variable and eliminated dependent variables no longer occur in enabled constraints.", "quantifier": "every linear model, every move sequence", "why_tests_cant": "history dependent", "anchors": ["printemps/model/model.h: update, update(move)"]}
{"id": "C15", "title": "The model reports feasible exactly when every enabled constraint is satisfied within tolerance", "statement": "is_feasible() after update holds iff each enabled constraint's violation is below the tolerance; a score's feasible flag and the per-constraint test agree when violations are integral.", "quantifier": "every model state", "why_tests_cant": "ranges over all violation vectors, including near-tolerance ones", "anchors": ["printemps/model/model.h: update, evaluate, is_feasible", "printemps/model_component/constraint.h: is_feasible"]}
{"id": "C16", "title": "Incumbents only improve, are really feasible, and are never lost", "statement": "Over any sequence of offered solutions: the feasible incumbent is absent iff no feasible solution was offered; otherwise it is one of the offered feasible solutions and no offered feasible solution is better than it by more than the tolerance; the global augmented incumbent likewise; the returned status bits say exactly which incumbents changed; and the dual bound as offered by the controllers (which compare before overwriting) never gets worse.", "quantifier": "every finite sequence of offers (models/scores), resets of the local incumbent interleaved", "why_tests_cant": "history dependent", "anchors": ["printemps/solution/incumbent_holder.h: try_update_incumbent, reset_local_augmented_incumbent, update_dual_bound"]}
{"id": "C17", "title": "The solution archive keeps the best solutions, bounded and sorted", "statement": "After any sequence of pushes the archive holds at most max_size solutions, every kept solution was pushed, the list is sorted in the archive's order, and for every pushed solution the archive still holds one with the same variable values that is at least as good, or is full of solutions at least as good; an unsorted archive keeps the latest ones. (Copies that are not adjacent after sorting may stay.)", "quantifier": "every archive capacity, every push sequence", "why_tests_cant": "history dependent", "anchors": ["printemps/solution/solution_archive.h: push, setup"]}
{"id": "C18", "title": "The fixed-size hash map answers exactly like the map it was built from", "statement": "For every source map and key-size hint, at(key) terminates and returns the stored value for present keys and 0 for every absent key, whatever collisions occur.", "quantifier": "every finite map, every key, every address layout", "why_tests_cant": "collisions depend on addresses", "anchors": ["printemps/utility/fixed_size_hash_map.h: setup, insert, at, compute_hash"]}
{"id": "C19", "title": "Union-find answers connectivity of the unions performed", "statement": "After any sequence of unite calls (with any interleaving of root/is_same queries, which compress paths), is_same(x,y) holds iff x and y are connected by the united pairs.", "quantifier": "every key set, every operation sequence", "why_tests_cant": "history dependent, unbounded", "anchors": ["printemps/utility/union_find.h: setup, root, is_same, unite"]}
{"id": "C20", "title": "The minimum spanning tree routine returns a spanning forest", "statement": "minimum_spanning_tree() returns a subset of the edges that is acyclic and connects exactly the nodes the graph connects, and no other spanning forest has a smaller total weight.", "quantifier": "every finite weighted graph", "why_tests_cant": "exponentially many spanning trees to compare against", "anchors": ["printemps/utility/graph/graph.h: minimum_spanning_tree"]}
{"id": "C21", "title": "A fixed-size queue always holds the most recent entries", "statement": "After any sequence of pushes to a queue with maximum size n >= 1 it holds exactly the last min(n, pushes) values in order; min/max/average refer to exactly those.", "quantifier": "every capacity >= 1, every push sequence", "why_tests_cant": "history dependent", "anchors": ["printemps/utility/fixed_size_queue.h: push, min, max, average"]}
{"id": "C22", "title": "Bidirectional maps are mutually inverse", "statement": "If keys and values inserted are pairwise distinct, forward and reverse lookup are mutually inverse on exactly the inserted pairs.  (Re-inserting a key leaves stale reverse entries.)", "quantifier": "every insertion sequence", "why_tests_cant": "history dependent", "anchors": ["printemps/utility/bidirectional_map.h: insert"]}
{"id": "C23", "title": "GF(2) matrix inversion is correct", "statement": "inverse_and_rank() returns the rank of the matrix over GF(2), and when the rank is full the returned matrix is a two-sided inverse over GF(2).", "quantifier": "every square 0/1 matrix of every size", "why_tests_cant": "2^(n*n) matrices for every n", "anchors": ["printemps/utility/binary_matrix.h: inverse_and_rank, dot"]}
{"id": "C24", "title": "Reachability is the transitive closure", "statement": "reachability() of an adjacency matrix has entry (i,j) set iff there is a non-empty path from i to j.", "quantifier": "every square 0/1 matrix of every size", "why_tests_cant": "unbounded path lengths", "anchors": ["printemps/utility/binary_matrix.h: reachability"]}
{"id": "C25", "title": "GF(2) presolve assigns values that satisfy the eliminated constraints", "statement": "When the GF(2) solver reports success on parity constraints whose non-key coefficients are 1 and whose keys are not shared with other parity constraints, the values it fixes satisfy every one of them, the parity variables get 0 or 1 and no other variable changes. (With a coefficient -1, or with a key shared as an ordinary variable, both accepted by the type detection, the fixed values can violate a constraint.)", "quantifier": "every system of parity constraints the solver accepts", "why_tests_cant": "solution depends on the inverse of an arbitrary matrix", "anchors": ["printemps/preprocess/gf2_solver.h: solve"]}
{"id": "C26", "title": "Bound tightening never cuts off an integer solution", "statement": "Tightening variable bounds from a constraint keeps every integer assignment that satisfies that constraint and the old bounds. It raises no exception when such an assignment exists, and performs no undefined conversion when the numbers are moderate. (False when a constraint with a single unfixed variable has fractional fixed terms; undefined conversions happen with unbounded variables or cancelled coefficients.)", "quantifier": "every constraint, every vector of bounds, every integer assignment", "why_tests_cant": "exponentially many assignments", "anchors": ["printemps/preprocess/problem_size_reducer.h: remove_redundant_constraint_with_tightening_variable_bound"]}
{"id": "C27", "title": "A constraint removed as redundant is implied by what remains", "statement": "When presolve disables a constraint as always satisfied, every assignment within the current bounds satisfies it; when it disables a one-variable constraint, the tightened bounds imply it.  (False for one-variable constraints whose bound exceeds the internal limit, for equalities with a non-integer solution, and when fixed terms are fractional.)", "quantifier": "every constraint, every vector of bounds, every assignment", "why_tests_cant": "exponentially many assignments", "anchors": ["printemps/preprocess/problem_size_reducer.h: remove_redundant_constraint_with_tightening_variable_bound", "printemps/model_component/expression.h: fixed_term_value"]}
{"id": "C28", "title": "Removing duplicated constraints preserves the solution set", "statement": "Disabling duplicated constraints leaves the set of assignments satisfying all enabled constraints unchanged; every disabled constraint has an equal enabled one. Within a type no duplicate is left when equal hashes only belong to equal constraints. (Duplicates do stay when another constraint over the same variables comes first, and knapsack duplicates always stay.)", "quantifier": "every list of constraints, every assignment", "why_tests_cant": "depends on hash grouping of addresses", "anchors": ["printemps/preprocess/problem_size_reducer.h: remove_duplicated_constraints"]}
{"id": "C29", "title": "Merging opposite inequalities into an equality preserves the solution set", "statement": "Replacing a pair of opposite inequalities by an equality leaves the solution set unchanged.", "quantifier": "every list of constraints, every assignment", "why_tests_cant": "sign/sense combinations over all expressions", "anchors": ["printemps/preprocess/problem_size_reducer.h: extract_implicit_equality_constraints"]}
{"id": "C30", "title": "Set-partitioning domination keeps the solution set", "statement": "When every constraint is enabled, fixing the surplus variables at 0 and disabling a set-partitioning constraint whose variables contain those of another keeps every solution, and on a feasible model leaves the solution set unchanged. (An infeasible model can become feasible when a surplus variable was fixed at 1, and a constraint the user disabled can remove an enabled one.)", "quantifier": "every model, every set of nested set-partitioning constraints, every assignment", "why_tests_cant": "all sizes and assignments", "anchors": ["printemps/preprocess/problem_size_reducer.h: remove_redundant_set_constraints"]}
{"id": "C31", "title": "Fixing unconstrained variables keeps an optimum", "statement": "A variable occurring in no constraint is fixed at a value within its bounds that is at least as good as any other for the objective (false when its objective coefficient is zero and 0 is outside its bounds).", "quantifier": "every model, every variable without constraints, minimization and maximization", "why_tests_cant": "sign/sense combinations and all bounds", "anchors": ["printemps/preprocess/problem_size_reducer.h: remove_independent_variable"]}
{"id": "C32", "title": "Selections are disjoint and faithful to set-partitioning constraints", "statement": "In every extraction mode the extracted selections have pairwise disjoint variable sets, each comes from an enabled set-partitioning constraint over 0/1 variables, and the greedy modes are maximal.", "quantifier": "every list of constraints, every mode", "why_tests_cant": "overlap structure is unbounded", "anchors": ["printemps/preprocess/selection_extractor.h"]}
{"id": "C33", "title": "Initial-value verification ends with exactly one selected variable and in-bounds values, or throws", "statement": "After successful verification each selection has exactly one variable at 1 and the rest at 0, no fixed variable was changed, and integer variables are within bounds; otherwise an exception is raised.", "quantifier": "every initial assignment, fixings and bounds, correction enabled or not", "why_tests_cant": "combinations of fixed/selected patterns over any selection size", "anchors": ["printemps/preprocess/verifier.h"]}
{"id": "C34", "title": "Generated moves never touch fixed variables and respect bounds", "statement": "A move flagged as usable by a constraint-based neighbourhood changes no fixed variable and sets no variable outside its bounds, and without screening every flip and every unit step within the bounds is offered. (The flip, soft-selection, two-flip and chain neighbourhoods do not test bounds: a free variable of binary kind with bounds 0..0 is offered the value 1.)", "quantifier": "every neighbourhood type, every model state", "why_tests_cant": "state dependent", "anchors": ["printemps/neighborhood/*_move_generator.h", "printemps/neighborhood/move.h: has_fixed_variable, has_bound_violation"]}
{"id": "C35", "title": "Constraint-specific moves keep their constraint satisfied", "statement": "Each move generated for an exclusive-or / exclusive-nor / inverted / balanced / constant-sum / constant-difference / precedence / variable-bound constraint leaves that constraint satisfied (or its value unchanged).  (False for constant-sum with both coefficients -1, constant-difference when the lower-addressed variable has coefficient -1, trinomial exclusive-nor with nonzero constant, and constant-ratio with fractional coefficients.)", "quantifier": "every such constraint, every current assignment", "why_tests_cant": "depends on pointer order and coefficient signs", "anchors": ["printemps/neighborhood/*_move_generator.h"]}
{"id": "C36", "title": "Selection moves preserve exactly-one", "statement": "Applying any selection move to a state with exactly one selected variable yields again exactly one, namely the target (when the currently selected variable is not fixed).", "quantifier": "every selection, every sequence of selection moves", "why_tests_cant": "history dependent", "anchors": ["printemps/neighborhood/selection_move_generator.h", "printemps/model/model.h: update(move)"]}
{"id": "C37", "title": "Integer step-size adjustment stays in bounds and never worsens the move", "statement": "adjust() terminates, returns a target within the variable's bounds and different from the current value, whose score is no worse than the original move's.  (When the variable's range is 2^30 or more the doubled step can overflow int.)", "quantifier": "every score function (convex or not), every bounds/value", "why_tests_cant": "the search path depends on an arbitrary score function", "anchors": ["printemps/solver/integer_step_size_adjuster.h: adjust"]}
{"id": "C38", "title": "Move lists contain exactly the flagged moves", "statement": "update_moves() exposes exactly the moves flagged by the enabled generators, each once, in generator order.", "quantifier": "every flag vector of every enabled generator", "why_tests_cant": "unbounded sizes", "anchors": ["printemps/neighborhood/neighborhood.h: update_moves"]}
{"id": "C39", "title": "A feasible solution with no objective-improvable variable is optimal", "statement": "If every variable's objective-improvability flag is up to date and false, no assignment within the bounds has a strictly better objective; hence the OPTIMAL status set in that situation is right.  (It is wrong when the flags were never computed: screening switched off.)  While the solution is feasible, screening drops no improving move.  The OPTIMAL status set because the incumbent is within EPS of the naive dual bound is right when minimizing (it is wrong when maximizing: the two are compared in different signs).", "quantifier": "every objective, minimization and maximization, every assignment within bounds", "why_tests_cant": "a global optimality claim over all assignments", "anchors": ["printemps/model_component/variable.h: update_objective_improvability", "printemps/solver/tabu_search/core/tabu_search_core.h: satisfy_optimal_or_no_move_terminate_condition"]}
{"id": "C40", "title": "Feasibility screening keeps every move that can reduce a violation", "statement": "At every iteration at an infeasible solution, every move that a generator would offer without screening, that stays within the bounds and that reduces the violation of some violated constraint, is still offered under the soft and aggressive tabu-search modes and in the local search; conversely a flagged variable has a step of one that helps a violated constraint.  (The intensive mode loses such moves.)", "quantifier": "every model, every sequence of moves, every move of any number of variables", "why_tests_cant": "all coefficient/sense/margin combinations", "anchors": ["printemps/model/model.h: update_variable_feasibility_improvabilities", "printemps/model_component/variable.h"]}
{"id": "C41", "title": "The naive dual bound is a valid bound", "statement": "compute_naive_dual_bound() is <= (minimization) or >= (maximization, original sign) the objective of every assignment within the bounds, and some assignment attains it.", "quantifier": "every objective, every assignment within bounds", "why_tests_cant": "exponentially many assignments", "anchors": ["printemps/model/model.h: compute_naive_dual_bound"]}
{"id": "C42", "title": "The search memory's intensity is the normalised sum of squared update counts", "statement": "After any sequence of memory updates a variable's update count is the number of its alterations, the primal intensity equals the sum of squared per-variable update counts divided by the square of their total, hence lies in (0,1] and is at least one over the number of variables; the same holds for the dual intensity and violation counts; the frequency penalty of a move is the coefficient times the share of past alterations that hit its variables; the Lagrangian penalty differs between two moves of the same variables by what they make of the Lagrangian (but not between moves of different variables, since it counts new values and not changes).", "quantifier": "every sequence of moves and resets, every draw of the random numbers", "why_tests_cant": "history dependent", "anchors": ["printemps/solver/memory.h: update", "printemps/solver/tabu_search/core/tabu_search_core_move_evaluator.h: compute_frequency_penalty, compute_lagrangian_penalty"]}
{"id": "C43", "title": "Tabu permissibility and tenure control", "statement": "A move is permissible in mode Any (and every selection move) iff none of its variables was updated within the tenure and in mode All iff not all were (a variable not updated since the last reset counts as updated at iteration -1000, so with a tenure above 1000 even untouched variables are tabu at first); the tabu tenure always stays between 0 and max(1, number of mutable variables), so the update interval is never zero; it moves by at most one per update except for the return to its setup value when the global incumbent improves.", "quantifier": "every move, every history of updates, every sequence of tenure updates", "why_tests_cant": "history dependent", "anchors": ["printemps/solver/tabu_search/core/tabu_search_core_move_evaluator.h: compute_permissibility", "printemps/solver/tabu_search/core/tabu_search_core_state_manager.h: update_tabu_tenure"]}
{"id": "C44", "title": "MPS files are read into the model they describe", "statement": "Every MPS file with well-formed records (sections in order; one free row; integral bounds in the range of int; a fixing bound last; no RANGES) is read and imported without error, whatever the white space; the model has the columns as variables and the rows as constraints in the order of the file, admits exactly the assignments that satisfy the rows and bounds of the file (an integer column without bounds ranges over 0/1), and its objective is the objective row.  A file without ENDATA, or with a coefficient in an undeclared row or a bound on an undeclared variable, is rejected.  (A RANGES record is read with the wrong sign and makes the row infeasible; OBJSENSE, the right-hand side of the objective and fractional bounds are not honoured; a bound of 1e30 is undefined behaviour; a second free row replaces the objective.)", "quantifier": "every sequence of MPS records", "why_tests_cant": "infinite input language", "anchors": ["printemps/mps/mps.h: read_mps", "printemps/model/model.h: import_mps"]}
{"id": "C45", "title": "Fixing, freeing and initialising variables by name does what the file says", "statement": "A file of names and values fixes exactly the variables it names, each at the rounded number of the last line naming it, and touches no other. A file of mutable names leaves exactly the named variables free and sets all variables to 0. An initial solution file gives each variable its number, or 0 if it is not named, and is rejected exactly if that would change a fixed variable. A file of pairs registers, in order, the pairs whose names are both known. (Numbers outside the int range are undefined; names with blanks, such as the default names of larger arrays, cannot be written in these files.)", "quantifier": "every model, every list of lines of text", "why_tests_cant": "unbounded files, repeated names, arbitrary numerals and blanks", "anchors": ["printemps/model/model.h: fix_variables, unfix_variables, import_solution, setup_flippable_variable_ptr_pairs", "printemps/helper/auxiliary_file_reader.h"]}
{"id": "C46", "title": "The best candidate move is the first of the best", "statement": "argmin (argmax) over the candidate scores returns the index of a smallest (largest) score, and the first such index.", "quantifier": "every non-empty score vector", "why_tests_cant": "unbounded vectors, ties", "anchors": ["printemps/solution/solution_score.h: argmin_index_*, argmax_index_*"]}
{"id": "C47", "title": "The presolve loop ends and keeps the solutions", "statement": "Repeating redundant-constraint removal, bound tightening and implicit fixing ends after at most (enabled constraints + unfixed variables + 1) rounds; on a feasible model with integer coefficients and moderate bounds it returns normally and the reduced model has exactly the solutions of the original; with the fixing of unconstrained variables it still has a solution at least as good as each original one.", "quantifier": "every model, every assignment, every number of rounds", "why_tests_cant": "termination and equality of solution sets for all models", "anchors": ["printemps/preprocess/problem_size_reducer.h: reduce_problem_size, remove_redundant_constraints_with_tightening_variable_bounds, remove_implicit_fixed_variables, remove_independent_variables"]}
{"id": "C48", "title": "Bounds derived from a known objective value keep every assignment that meets it", "statement": "Tightening bounds from a primal bound keeps every assignment at least as good as it, and from a dual bound when minimizing every assignment not below it. (False for a dual bound when maximizing: assignments below the bound are cut off.)", "quantifier": "every objective, bound value, vector of bounds and assignment, minimization and maximization", "why_tests_cant": "all assignments are quantified over", "anchors": ["printemps/model/model.h: update_variable_bounds", "printemps/solver/solver.h"]}
{"id": "C49", "title": "Fixing dominated set variables keeps an optimum", "statement": "In a problem of set-partitioning, -packing and -covering constraints only, fixing at 0 a variable that occurs in exactly the constraints of another one that is no more expensive adds no solution and keeps, for every solution, one at least as good. (False for covering problems with profitable variables, and a variable fixed at 1 by the user can be overwritten.)", "quantifier": "every set problem, objective, address layout, name order and assignment", "why_tests_cant": "all sizes, orders and hash layouts", "anchors": ["printemps/preprocess/problem_size_reducer.h: remove_redundant_set_variables", "printemps/model_component/variable.h: setup_hash"]}
{"id": "C50", "title": "Chain moves combine the last two moves and can be undone", "statement": "When the search registers chain moves after two consecutive flip moves, the registered move names each variable once, has the effect of performing the two moves in order, and its complement, also registered, undoes both.", "quantifier": "every pair of consecutive flip moves, every address layout, every assignment", "why_tests_cant": "all move pairs and histories", "anchors": ["printemps/solver/tabu_search/core/tabu_search_core.h: update_chain_moves", "printemps/neighborhood/chain_move_generator.h"]}
{"id": "C51", "title": "The tabu search takes the best non-tabu move, or a tabu one only for a new global incumbent", "statement": "If there is at least one trial move, the search selects one: unless the aspiration rule applies, no move of a better class (free before tabu before special moves improving nothing) exists, none of the same class has a smaller penalized score, and ties go to the first; the aspiration rule applies exactly when it is enabled and some trial solution improves the global incumbent by more than 1e-5, and then the trial with the least global objective is taken.  (Penalized scores below 1e49 in absolute value.)", "quantifier": "every list of trial moves with arbitrary scores, every incumbent", "why_tests_cant": "all score vectors", "anchors": ["printemps/solver/tabu_search/core/tabu_search_core.h: select_move, run"]}
{"id": "C52", "title": "A whole tabu search run keeps true scores, true incumbents, and stops", "statement": "During a tabu search run the score of the current solution and of every visited solution equals the one computed from scratch, and is marked feasible exactly if all constraints hold; every stored feasible solution satisfies all constraints; the feasible incumbent satisfies them, has the reported objective, and no visited feasible solution is better by more than 1e-5; each special move is applied at most once; the run ends after at most iteration_max moves besides the initial modifications, and the termination status it reports is true of the final state.", "quantifier": "every model with integral constraints and its dependents eliminated, start, options, initial modification, offered moves, random numbers, clock", "why_tests_cant": "all run histories and lengths", "anchors": ["printemps/solver/tabu_search/core/tabu_search_core.h: run, initial_modification, select_move, satisfy_*", "printemps/solver/tabu_search/core/tabu_search_core_state_manager.h", "printemps/solver/tabu_search/core/tabu_search_core_move_evaluator.h"]}
{"id": "C53", "title": "Local search reports true scores and only ever improves", "statement": "One run of the local search performs, per iteration, a combination of offered moves that share no enabled constraint. If the model's caches are in order, all violations are integers, every offered move covers the constraints it touches and every variable it alters occurs in some enabled constraint, then: the score of every visited solution is the one computed from scratch, it is marked feasible exactly when it satisfies all enabled constraints, every stored feasible solution satisfies them, and the incumbents are exactly what the visited solutions make of them; without integer step-size adjustment every visited solution is strictly better than all earlier ones (less violation, or none and a lower objective), so that none is visited twice; the run performs at most the maximal number of iterations and the termination status is true of the final solution, where LOCAL_OPTIMAL means that the offered move with the least augmented objective does not meet the acceptance criterion. Known exceptions: a variable in no enabled constraint can be altered twice in one iteration with a wrong score; two moves of one selection whose variables have no other constraint can be combined and violate the selection; LOCAL_OPTIMAL can be reported at an infeasible solution although an offered move reaches a feasible one.", "quantifier": "every model with caches in order, every option set, every sequence of offered neighbourhood moves, every number of iterations", "why_tests_cant": "Which moves combine depends on scores, constraint structure and order; a few small models cannot show that no combination over any history breaks the scores or returns to an earlier solution.", "anchors": ["printemps/solver/local_search/core/local_search_core.h: LocalSearchCore::run", "printemps/solver/local_search/core/local_search_core_state_manager.h", "printemps/model/model.h: evaluate_multi, update"]}
{"id": "C54", "title": "Writing an MPS file and reading it back preserves the model", "statement": "For every model whose coefficients have at most six significant digits (and are zero or above 1e-10 in magnitude), whose objective has no constant, whose variables all occur in the objective or a constraint, and whose unfixed variables have neither the lower bound INT_HALF_MIN nor the range [0, INT_HALF_MAX], the file produced by write_mps is accepted by read_mps and import_mps and gives a model with the same variable and constraint names in the same order (blanks removed), the same admitted assignments and the same objective (negated for maximization).  Outside these conditions the model changes or the file is rejected: an unused variable makes the file unreadable, [0, INT_HALF_MAX] comes back as [0,1], a free lower bound as 0, an objective constant is lost, further digits are lost, a constraint named obj is merged into the objective.", "quantifier": "every such model and every order of the lines of a variable", "why_tests_cant": "infinitely many models and numerals", "anchors": ["printemps/model/model.h: write_mps, import_mps", "printemps/mps/mps.h: read_mps", "printemps/utility/string_utility.h: delete_space"]}
{"id": "C55", "title": "A written solution file is an initial solution with the same values", "statement": "Writing the solution of a model to a file and reading that file as the initial solution of a model with the same variable names gives every variable its value back, whatever order the arrays are written in, if array names and variable names are distinct, names have no blanks, and the objective value is within the int range (or the solution is infeasible).", "quantifier": "every model, every assignment, every order of the map of arrays", "why_tests_cant": "unbounded models, names and values; unspecified map order", "anchors": ["printemps/solution/named_solution.h: write_solution", "printemps/model/model.h: export_named_solution, import_solution", "printemps/helper/auxiliary_file_reader.h: read_names_and_values"]}
{"id": "C56", "title": "Default names are unique", "statement": "Set-up keeps names given by the user; two different variables left unnamed get different names, if the array names are distinct and contain no opening bracket.", "quantifier": "every model, every shape and number of arrays, every index", "why_tests_cant": "unbounded shapes; depends on the padding and separators of the printed indices", "anchors": ["printemps/model/model.h: setup_unique_names, create_variables", "printemps/multi_array/abstract_multi_array.h: indices_label"]}
{"id": "C57", "title": "Dual bound of the Lagrange dual search", "statement": "When minimizing, the Lagrangian computed in any iteration of the Lagrange dual search is at most the objective of every assignment within the bounds (fixed variables at their values) that satisfies all constraints, so the dual bound reported never exceeds the optimum and never gets worse. The solutions the search offers to the incumbents carry their true scores; it stops after at most iteration_max iterations and its termination status is true. Exceptions: when maximizing the bound can be below the optimum; the bound reported is the last Lagrangian, not the best one.", "quantifier": "every model without dependent variables, every options, step sizes, incumbents, clock, number of iterations", "why_tests_cant": "A unit test compares one run; a bound must hold against every feasible assignment and every sequence of multipliers.", "anchors": ["printemps/solver/lagrange_dual/core/lagrange_dual_core.h: run", "printemps/solver/lagrange_dual/core/lagrange_dual_core_state_manager.h: update_dual, bound_dual, update_lagrangian", "printemps/solver/lagrange_dual/controller/lagrange_dual_controller.h: run", "printemps/model/model.h: compute_lagrangian"]}
{"id": "C58", "title": "solve() returns a solution it visited, with its true objective and feasibility, and the best one", "statement": "If solve() returns, the returned values are those of a solution visited by one of the phases, the returned objective, total violation and feasibility flag are those computed from scratch at the returned values; it is flagged feasible exactly if some visited solution satisfies all enabled constraints, and then no visited satisfying solution has an objective better by more than the tolerance 1e-5; otherwise none has a lower augmented objective by more than the tolerance. This holds for every combination and length of the phases (preprocessing, PDLP, Lagrange dual, local search, tabu search with restarts and changing penalty coefficients), every sequence of offered moves and every time at which the clock runs out. Every phase starts from the initial solution or from a visited one, and there are at most iteration_max rounds. Otherwise solve() ends with an exception caused by a start that a bound, a fixed variable or a selection does not admit, or the penalty coefficients are no longer numbers.", "quantifier": "every prepared model with caches in order, every option set, every sequence of rounds, neighbourhood moves and clock readings", "why_tests_cant": "The incumbents pass through four searches and any number of restarts in between which the penalty coefficients change; a run shows one path.", "anchors": ["printemps/solver/solver.h: Solver::solve, postprocess, run_lagrange_dual, run_local_search, run_tabu_search", "printemps/solver/tabu_search/controller/tabu_search_controller.h: TabuSearchController::run", "printemps/model/model.h: import_solution, export_named_solution"]}
{"id": "C59", "title": "Between rounds the controller keeps penalty coefficients bounded and restarts from an incumbent", "statement": "Between two rounds of the tabu search only penalty coefficients of the model change, they stay between 0 and the initial penalty coefficient, and the relaxing rate stays within its configured range. Relaxing multiplies exactly the coefficients of the constraint sides the local incumbent respects by one positive factor; tightening raises only coefficients of sides it violates, and raises its penalized objective by at most the tightening rate times the gap to the global incumbent (exactly that with balance 0, no cap reached). After a feasible local incumbent no coefficient rises. The next round starts from the global incumbent, the local incumbent or the previous start, as the restart rules say, and is perturbed exactly when they say so. Tabu tenure, iterations per round and number of perturbations stay within their ranges. Exception: if no constraint the local incumbent violates has been counted as violated, the coefficients become NaN.", "quantifier": "every option set, every model, every result of a round, every controller state", "why_tests_cant": "Coefficients are the product of an unbounded history of multiplications and additions; bounds on them need an invariant.", "anchors": ["printemps/solver/tabu_search/controller/tabu_search_controller_state_manager.h: update, relax_local_penalty_coefficient, tighten_local_penalty_coefficient"]}
{"id": "C60", "title": "Tightening bounds with the feasible incumbent keeps the optimum", "statement": "When minimizing with an integer objective and numbers that fit, the tightening of variable bounds with the objective of the feasible incumbent between the rounds of the tabu search, any number of times, throws no exception, adds no solution, removes no solution at least as good as all incumbents used, and every optimal solution stays feasible and optimal. Exception: when maximizing, the value used has the wrong sign; better solutions are cut off, or an exception is thrown.", "quantifier": "every objective, bounds, constraints, history of rounds with true incumbents", "why_tests_cant": "The bounds shrink round after round; that the optimum survives depends on all incumbents and all solutions.", "anchors": ["printemps/solver/tabu_search/controller/tabu_search_controller.h: TabuSearchController::run", "printemps/model/model.h: update_variable_bounds", "printemps/preprocess/problem_size_reducer.h: remove_redundant_constraint_with_tightening_variable_bound"]}
{"id": "C61", "title": "The sparse matrices compute the algebra of their coefficients", "statement": "A sparse matrix built from lists of rows, columns and values listed row after row multiplies any vector of the right size like the matrix of the listed coefficients (repeated entries add up) and refuses any other size with an exception; linear combinations, multiplication by diagonals, transposes and the identity y.(Ax) = (A'y).x hold; after any number of Ruiz rounds with or without Pock-Chambolle scaling the matrix times its (positive) scalers is the original, and no entry exceeds 1 after a Ruiz round. The norms are the largest column sum of absolute values and the largest absolute value. Exceptions: entries listed in another order, or an object set up a second time, give wrong products without an exception; transposing a matrix without rows is undefined behaviour.", "quantifier": "every size, list of entries, vector, number of scaling rounds, positive square root function", "why_tests_cant": "Row pointers, sorting and accumulated scalers must agree for all sparsity patterns; tests check a few fixed matrices.", "anchors": ["printemps/utility/sparse/sparse_matrix.h: setup, dot, transpose, ruiz_scaling, pock_chambolle_scaling, scale_row, scale_column", "printemps/utility/sparse/function.h: linear_combination", "printemps/utility/sparse/vector.h: dot"]}
{"id": "C62", "title": "The dual bound of the linear relaxation is a bound", "statement": "When the solver of the linear relaxation (PDLP) offers a dual bound, then whatever the time limit, restarts, weights and scalings, every solution of the problem (bounds, fixed values, enabled constraints, selection constraints) has an objective value without its constant at least the bound when minimizing and at most the bound when maximizing, provided all bounds of the relaxation's variables lie within a quarter of the range of int. Every solution is a feasible point of the exported and of the scaled relaxation with that objective. Exceptions: the constant of the objective is left out, so for minimization with a negative constant (maximization with a positive one) the bound offered can be beaten by a solution; a problem without any enabled constraint is undefined behaviour.", "quantifier": "every problem, options, number of iterations, time-out point, restart decisions, positive weights, any norm and positive square root", "why_tests_cant": "The bound must hold for all solutions of all problems and at every point at which the iteration is interrupted; tests compare a few optimal values.", "anchors": ["printemps/model/model.h: export_lp_instance", "printemps/linear_programming/linear_programming.h: scaling", "printemps/solver/pdlp/core/pdlp_core_state_manager.h", "printemps/solver/pdlp/controller/pdlp_controller.h: run"]}
{"id": "C63", "title": "Runs and verdicts of the solver of the linear relaxation", "statement": "On every well-formed linear program the solver stops after at most the allowed number of iterations, every search of a step size ends (if the factors that reduce it have a vanishing product, as n^a for -1 <= a < 0), the current point stays within its bounds, the multipliers of inequalities stay non-negative and the recorded dual objective bounds the objective of every feasible point up to the recorded dual violation on variables that count as unbounded. Reduced costs are not negative for variables unbounded above and not positive for variables unbounded below. OPTIMAL means that a point within the bounds violates no row by more than the relative tolerance and no feasible point is better than it by more than the relative tolerance; INFEASIBLE means that the problem has no solution when the fixed variables contribute nothing (or an improvement) to the objective. Exception: with fixed variables that worsen the objective a feasible problem is reported INFEASIBLE.", "quantifier": "every linear program, options, interruption, restart decisions, positive weights, any norm", "why_tests_cant": "Verdicts and termination must be right at every iteration of every run; tests solve a few small programs.", "anchors": ["printemps/solver/pdlp/core/pdlp_core.h: run, satisfy_*_terminate_condition", "printemps/solver/pdlp/core/pdlp_core_state_manager.h: update_solution, update_averaged_solution, update_convergence_information"]}
{"id": "C64", "title": "Eliminating defined variables keeps the problem", "statement": "Preprocessing that turns equations into definitions of variables never fails on consistent data, disables only enabled equations of a type whose option is on (no exclusive or / nor with a variable of a set partitioning), and the loop of extraction, elimination and presolve ends on every model. Afterwards no defined variable is left in the objective, in an enabled constraint or in a definition. If no definition leads back to the variable it defines, a round of extraction and elimination keeps exactly the solutions and their objective values (variables in the default range of unbounded variables), bounds of defined variables included; definitions cannot lead back when only the two-variable types keyed by name order are enabled. With integer data the value a defined variable gets by truncation is the value of its definition. Exceptions: with the default options definitions can form a ring, and the only solution is lost; a fractional right-hand side makes an unsolvable problem solvable; reported constraint types and the margin test of the incremental evaluation can be wrong after elimination because the flags of a constraint and its largest coefficient are not refreshed; a coefficient that cancels makes presolve divide by zero.", "quantifier": "every model, options, order of constraints and names", "why_tests_cant": "Which equations are chosen, in which order they are substituted and what cancels depends on the whole model; tests eliminate a few hand-made chains.", "anchors": ["printemps/preprocess/dependent_variable_extractor.h: extract, eliminate", "printemps/model/model.h: setup", "printemps/model_component/expression.h: solve, substitute"]}
{"id": "C65", "title": "JSON files give back what was written to them", "statement": "Writing an object or array at any indentation and reading the file gives back the same structure with the same keys in the same order, provided keys and strings contain none of , : { } [ ] quotation mark or end of line, integers fit an int (no long long in arrays) and doubles are 0, not finite, or between 1e-300 and 1e300: doubles come back to seven significant digits, booleans inside an array as strings. A lookup finds the last element stored under a key, before and after. Reading ends on every file in which each bracket is closed, and is undefined for exactly the files with nothing but blanks, commas and colons. Outside these conditions: punctuation in strings is altered, a quotation mark or a large integer or a subnormal double makes the file unreadable, a long long in an array cannot be written, equal numbers of brackets that do not close make reading loop forever, a file with \\r\\n line ends is misread silently, and parsing the printed text without a file does not give the object back.", "quantifier": "every JSON value, indentation and file", "why_tests_cant": "The reader splits the text at punctuation before it looks at quotation marks, so what survives depends on every character of every string; tests read a few small files.", "anchors": ["printemps/utility/json/json.h: JsonObject, JsonArray, operator<<, tokenize, parse_json_object, parse_json_array, write_json_object, read_json_object"]}
{"id": "C66", "title": "An option file sets the parameters it names and no others", "statement": "Without a file every parameter has its default. A file that is accepted gives each parameter it names (last occurrence) the value written there and leaves every other parameter at its default, whatever the order of the keys and whatever unknown keys there are; it is refused, with an exception and never undefined behaviour, exactly when a section is not an object, or a named parameter has a value of the wrong type or an unknown name. Writing options to a file and reading them back gives the same options, doubles to seven significant digits. Exceptions: parallel.number_of_threads_move_update reads a misspelt key and always comes back as its default; an enumeration accepts any integer, after which the options cannot be written; a value of the wrong type for an enumeration is ignored.", "quantifier": "every option file, every option value", "why_tests_cant": "There are 134 parameters in 11 sections, each with its own line in three functions; a test would have to change each of them separately and in combination.", "anchors": ["printemps/option/option.h: setup, to_json", "printemps/option/read_json.h: read_json", "printemps/option/parallel_option.h: setup", "printemps/option/enumerate/*.h"]}
{"id": "C67", "title": "Sums, products and names of arrays take the elements their index says", "statement": "For every shape and every pattern of indices with Range::All, x.sum(pattern) on an array of variables is the sum of the elements whose multi-index matches, each taken once, and x.dot(pattern, c) pairs them in lexicographic order with c; a pattern of the wrong length, more than one All or a wrong number of coefficients throws; x(i, j, ...) throws on a wrong number of indices and finds an element for every index within the shape. An array of expressions satisfies the same after every history of definitions and updates, its total and its product over the whole array without exception, those over slices as long as no element was assigned a computed expression or another element; naming an element names no other, and unnamed elements get the array's name with their indices. Exceptions: e(i, j) = expression replaces the element's index by 0, so sums over slices miss it, take it wrongly or read beyond the index; e(1) = e(0) makes both elements share one name.", "quantifier": "every shape, pattern, coefficient list and history of operations on arrays", "why_tests_cant": "The index arithmetic and the sharing of the element's data depend on the shape and on the whole history of assignments; a test fixes one of each.", "anchors": ["printemps/model_component/variable_proxy.h: sum, dot, operator()", "printemps/model_component/expression_proxy.h: sum, dot, operator=", "printemps/model_component/expression.h: assignment operators", "printemps/multi_array/abstract_multi_array_element.h", "printemps/model_component/range.h"]}
{"id": "C68", "title": "A solution written as JSON keeps its values and their positions", "statement": "Writing a solution as arrays gives, for every shape, arrays nested to the depth and with the lengths of the shape, in which the element at every index is the value of that element: variables exactly, expressions, constraints and violations to six decimals; the object has one entry for each array of the model and no other. Writing it by name stores each value under the name of its element. Reading either file back finds the name, sizes, feasibility, objective and violation of the solution and all its values, doubles to seven digits, as long as names contain no punctuation of JSON. Exceptions: the default names of array elements contain brackets, and the file by name cannot be read back under them; written as arrays, values below half a millionth become 0.", "quantifier": "every solution, every shape and every value within range", "why_tests_cant": "The brackets are written by a loop that tracks the dimension it is in; whether they match the shape depends on the carry of all indices, for every shape.", "anchors": ["printemps/multi_array/value_proxy.h: create_json_array, create_json_object", "printemps/solution/named_solution.h: write_json_by_name, write_json_by_array", "printemps/utility/json/json.h"]}
{"id": "C69", "title": "The automatic number of threads tries every candidate and then follows the measurements", "statement": "With the automatic parallelization on, the number of threads of every round is one of the powers of two below the available maximum or the maximum itself; the candidates are first tried in increasing order, one round each; afterwards every round uses the candidate whose optimistic estimate (fading mean of its own moves per second plus a multiple of its spread) is largest, the smallest one among equals. The mean reported for a candidate stays within the rates measured for it, and the average number of threads reported is the average over the rounds. With the automatic choice off, the parallelization runs on one thread when disabled. Exceptions: a number of threads set by the user holds in the first round only, after which the maximum is used; a decay factor above 1 is not refused and can leave no candidate, after which a null pointer is used.", "quantifier": "every number of available threads, every history of rounds with their moves and times, every decay factor between 0 and 1", "why_tests_cant": "The choice of a round depends on the rates of all earlier rounds, and the times are those of the machine; a test sees one history.", "anchors": ["printemps/utility/ucb1/action.h: learn, update_confidence", "printemps/utility/ucb1/learner.h: setup, learn, best_action", "printemps/solver/tabu_search/controller/tabu_search_controller_state_manager.h: setup, update_parallelization_controllers, update_move_update_parallelization, update_move_evaluation_parallelization", "printemps/solver/solver.h: preprocess"]}
{"id": "C70", "title": "The search tree shows the frontier and the locally optimal incumbents of the whole search", "statement": "For every history of offered incumbents that are all different, the archive holds the initial solution and all offered ones in order, except the infeasible ones that came before the first offered feasible one; although the graph is extended step by step, after each offer the solutions shown are those of a minimum spanning tree of the complete graph of the archive under the number of differing values: as frontier exactly those with one edge, as locally optimal exactly those without a neighbour of smaller augmented objective, each with its distance to the incumbent. A best solution of the archive is always among the locally optimal ones, and with two or more solutions at least two are on the frontier. Exceptions: when a solution is offered a second time, the archive can shrink and the tree reads past its end; when maximizing, the exported augmented objective has the sign of a minimization, so that worse solutions are shown as locally optimal.", "quantifier": "every initial solution and every history of batches of offered solutions", "why_tests_cant": "Nodes and edges are indices into an archive that grows and is cleaned once; whether they still mean the same solutions depends on the whole history.", "anchors": ["printemps/solver/search_tree.h: setup, update", "printemps/solver/abstract_solver_controller.h: update_incumbent_solution_archive_and_search_tree", "printemps/utility/graph/graph.h: add_node, add_edge, minimum_spanning_tree", "printemps/utility/unordered_map_utility.h: distance_l0", "printemps/solution/solution_archive.h: push, remove_infeasible_solutions", "printemps/model/model.h: export_sparse_solution, export_dense_solution"]}
{"id": "C71", "title": "The command line starts the solver from exactly the files it names", "statement": "Every command line is a sequence of options with a value, switches and file names (or ends in an option whose value is missing); of repeated options the last one counts, and the settings are determined by that. With no argument the usage is printed; -m together with -f is rejected before any file is read. Otherwise the solver starts if and only if the files can be read and the initial solution does not change a fixed variable, and then it starts from the MPS file changed by exactly the given files: with -m the free variables are those listed and all others are fixed at 0, with -f the listed ones are fixed at the listed (rounded) values in addition to those the MPS file fixes, with -i every variable has its value in the file or 0, with -s exactly the listed constraints are user-defined selections, with -x the two-flip move is on with the listed pairs, with -p the options are those of the file, and everything else is as in the MPS file; the instance is called like the file without directory and extension. Exceptions: an option without its value reads past the arguments; a misspelt option is taken for the MPS file; -m overrules variables fixed in the MPS file; a name without extension is cut at a dot of its directory.", "quantifier": "every list of arguments and every content of the files", "why_tests_cant": "Options interact (-m, -f, -i, -x, FX bounds) and can be repeated in any order; tests try a few combinations on a few files.", "anchors": ["printemps/standalone/mps_solver.h: parse_command_line_arguments, setup", "printemps/helper/auxiliary_file_reader.h", "printemps/model/model.h: import_mps, fix_variables, unfix_variables, import_solution, set_user_defined_selection_constraints, setup_flippable_variable_ptr_pairs", "printemps/option/option.h: setup", "printemps/utility/string_utility.h: base_name, remove_extension, remove_path"]}
{"id": "C72", "title": "Flippable pairs are the pairs of binary variables with enough common constraints", "statement": "With a threshold N the extractor lists two different variables as a pair if and only if both are binary (or selection) variables that are not fixed and occur in an enabled constraint, and at least N constraints contain both. Each pair is listed once and in one direction, with the number of common constraints and its ratio to the number of constraints with either variable, and pairs with larger ratio come first. This holds for every traversal order of the hash set of variables. Reading the written file back with -x registers the same pairs in the same order, if the names are different and have no blanks. Exceptions: constraints disabled by the presolve still count as common constraints; with blanks in the names (as in default names) nothing is read back.", "quantifier": "every model, threshold and iteration order of the hash set", "why_tests_cant": "The order of the hash set is not under a test's control, and the pairs grow quadratically.", "anchors": ["printemps/preprocess/flippable_variable_pair_extractor.h: extract_pairs, write_pairs", "printemps/utility/unordered_set_utility.h", "printemps/model/model.h: setup_variable_related_constraints, setup_flippable_variable_ptr_pairs", "printemps/helper/auxiliary_file_reader.h: read_name_pairs", "printemps/standalone/mps_solver.h: extract_flippable_variable_pairs"]}
{"id": "C73", "title": "The prepared problem has the same optimum as the user's model", "statement": "Setting up a feasible model for the search - implicit equalities, redundant set constraints, size reduction, dependent variables, redundant set variables, duplicates, selections, in the order and under the options of the program - ends. The problem it hands to the search has only solutions of the user's model, with the same objective values, and for each solution of the user's model one that is at least as good; so an optimal solution of the prepared problem is optimal for the user, and the optimal value is the same. The set-up then ends with valid initial values, and throws only if given values are to be kept and are invalid, or if the violations it compares exceed the range of int. This holds for models with integer coefficients, moderate bounds and no invisible objective coefficient (see C26), with the conditions of C64 and C49 when dependent variables or redundant set variables are searched for; without these two, for every such model. A reduction that is switched off is not applied, and values are only corrected if that is switched on.", "quantifier": "every feasible model of this kind, every combination of options, every order of addresses and names, every optimization direction", "why_tests_cant": "The phases change variables, constraints and types that later phases read, partly in an outdated form; no test covers the combinations.", "anchors": ["printemps/model/model.h: setup, setup_structure, set_selections", "printemps/preprocess/problem_size_reducer.h", "printemps/preprocess/dependent_variable_extractor.h", "printemps/preprocess/selection_extractor.h", "printemps/preprocess/verifier.h", "printemps/option/preprocess_option.h"]}
{"id": "C74", "title": "An answer to the user's model is right from end to end", "statement": "For a feasible model whose set-up succeeds, solve() ends - for all options, offered moves, random numbers and clocks - with an answer, or throws because a visited solution leaves the bounds or does not select exactly one variable, or loses the penalty coefficients; if no value outside is offered it does not throw and stays within the bounds. An answer reported feasible gives the variables of the user's model the values of one of its solutions and reports the true objective of the user's model, and the dual bound with which the search starts is a bound for every solution of the user's model. This needs that what the constraints remember of their coefficients is still right after the set-up. It is for every model as it is entered if dependent variables are not eliminated, and presolve is on or no binary variable has the bounds [0, 0] or [1, 1]. Exceptions, both with default options otherwise: after the elimination of dependent variables the remembered coefficients are outdated, and a feasible solution the search has visited can be lost; without presolve a binary variable with bounds [1, 1] is given the value 0.", "quantifier": "every feasible model of the kind of C73, every combination of options, every history of offered moves, random numbers and clock readings", "why_tests_cant": "The answer passes through the set-up, the choice of penalties, all search phases and the final report; tests see only some models and some histories.", "anchors": ["printemps/solver/solver.h: preprocess, solve, postprocess", "printemps/model/model.h: setup, shrink_global_penalty_coefficient", "printemps/model_component/constraint.h: setup", "printemps/preprocess/dependent_variable_extractor.h", "printemps/model_component/variable.h: setup_sense_binary_or_integer"]}
{"id": "C75", "title": "The penalty makes every infeasible solution worse than every feasible one", "statement": "The penalty coefficient with which the search starts never exceeds the initial coefficient of the options. If the initial coefficient is larger than the range of the objective by at least 1, every infeasible solution within the bounds has a penalized objective larger by at least 1 than every feasible one, also after the coefficient has been shrunk to the range of the objective. With a smaller initial coefficient an infeasible solution can be preferred to a feasible one.", "quantifier": "every feasible model of the kind of C74, every value of the penalty options, all pairs of solutions within the bounds", "why_tests_cant": "The shrunk coefficient is just one more than the range of the objective, so a wrong bound or a missed sign shows only on models that reach it.", "anchors": ["printemps/model/model.h: shrink_global_penalty_coefficient, setup", "printemps/option/penalty_option.h", "printemps/model_component/expression.h: lower_bound, upper_bound"]}
{"id": "C76", "title": "The reported dual bound bounds every solution of the user's model", "statement": "Whatever way solve() ends, no solution of the user's model has an objective better than the dual bound it reports, whether that bound comes from the bounds of the variables, from the linear relaxation or from the Lagrange dual of the prepared problem; it is never worse than the bound from the variables alone. When the answer is feasible, the reported bound and the reported objective enclose the optimum: no solution is better than the answer by more than their difference. Exceptions: maximization with the Lagrange dual switched on, and the linear relaxation with an objective constant of the wrong sign, can report bounds a solution beats.", "quantifier": "every proper feasible model with an objective, every presolve switch and option, every course of the linear relaxation, the Lagrange dual and the searches, every clock and random number", "why_tests_cant": "A wrong bound shows only when it cuts off the optimum; tests compare bounds for a few fixed problems and do not know the optimum after presolve.", "anchors": ["printemps/solver/solver.h: solve, run_pdlp, run_lagrange_dual", "printemps/solver/pdlp/controller/pdlp_controller.h", "printemps/solver/lagrange_dual/controller/lagrange_dual_controller.h", "printemps/model/model.h: export_lp_instance", "printemps/solution/incumbent_holder.h: update_dual_bound"]}
{"id": "C77", "title": "With its own moves solve() stays within bounds and selections and does not throw", "statement": "Whatever neighbourhoods are switched on, however the candidate moves are screened, shuffled and curtailed, and whatever the clocks and random numbers: every move the built-in neighbourhoods offer in a valid solution changes only variables that are neither fixed nor defined by an expression, to values within their bounds, keeps exactly one variable of each selection at 1 and names every constraint it affects; so solve() visits only such solutions and does not throw, and an answer reported feasible is a solution of the user's model with its true objective. Exception: with the presolve reductions switched off and a variable of a selection constraint fixed at 1 by the user, solve() throws; and a tabu_search.move_preserve_rate above 1 makes the search read moves that do not exist.", "quantifier": "every proper feasible model, every set of options and neighbourhoods, every screening and order of the moves, every clock and random number", "why_tests_cant": "The set of reachable solutions is exponential and the interplay of neighbourhoods, presolve and selections depends on the model; tests follow a few runs.", "anchors": ["printemps/model/model.h: setup_neighborhood", "printemps/neighborhood/neighborhood.h: update_moves", "printemps/neighborhood/*_move_generator.h", "printemps/solver/solver.h: solve", "printemps/solver/tabu_search/core/tabu_search_core.h", "printemps/solver/local_search/core/local_search_core.h", "printemps/preprocess/verifier.h"]}
{"id": "C78", "title": "No solution is out of reach of the moves on offer", "statement": "When every move is accepted, the built-in neighbourhoods offer the flip of every binary variable that is not fixed, both steps by one of every integer variable that is not fixed as far as its bounds allow, and the change of a selection to any of its variables that is not fixed. So from the start, and from every valid solution, moves on offer lead to every other valid solution, in no more moves than the sum of the differences of the values; and, after the presolve reductions, to a solution of the user's model that is at least as good as any given one.", "quantifier": "every proper feasible model and all options of the preparation, every pair of valid solutions, every solution of the user's model", "why_tests_cant": "That nothing is cut off is a statement about all pairs of an exponential set of solutions; a test sees the moves of a few of them.", "anchors": ["printemps/neighborhood/binary_move_generator.h: setup", "printemps/neighborhood/integer_move_generator.h: setup", "printemps/neighborhood/selection_move_generator.h: setup", "printemps/neighborhood/neighborhood.h: update_moves", "printemps/model/model.h: setup_neighborhood", "printemps/preprocess/problem_size_reducer.h"]}
{"id": "C79", "title": "Solving parity constraints in presolve changes nothing but the work left", "statement": "When presolve solves a system of parity constraints (equations with one variable of coefficient 2 or -2 and binary variables) by itself, it fixes variables only to values they have in every solution of the prepared problem, so that no solution is lost or added, the best solution of the user's model is kept, solve() reports the right answer for moves that leave fixed variables alone, and the reported dual bound holds. This is so when the parity constraints are enabled, share no keys and have coefficients 1. (Exceptions: with a coefficient -1 a feasible model becomes infeasible; disabled parity constraints fix variables all the same and cut off better solutions; and since the moves are made before this step, moves of variables it fixed are tried, after which solve() can report an infeasible answer although it visited a solution.)", "quantifier": "every proper feasible model, all options of the preparation, every order in which the parity variables are eliminated, every run of the search", "why_tests_cant": "It is about all solutions of all models with parity constraints and all runs of the search on them; tests of the GF(2) solver look at a few matrices and never at the moves that are tried afterwards.", "anchors": ["printemps/model/model.h: setup", "printemps/preprocess/gf2_solver.h: solve", "printemps/neighborhood/binary_move_generator.h: setup", "printemps/solver/solver.h: solve"]}
{"id": "C80", "title": "A solution reported as feasible is one, whatever moves were tried", "statement": "Whatever moves the neighbourhoods offer to the searches (also moves of fixed variables, moves that leave the bounds, moves that name the wrong related constraints), whatever options, random numbers and clocks, and whatever values presolve fixed parity variables to: if solve() returns, what it reports is a solution it visited, within bounds and selections, with fixed variables untouched, and its objective, violation and feasibility are those of its values; and if it is reported as feasible it satisfies every constraint of the user's model and the reported objective is that of the user's model. Otherwise a solution outside the bounds was visited and refused with an exception, or penalty coefficients were lost.", "quantifier": "every proper feasible model whose preparation ends well, every sequence of moves offered, all options, random choices and clocks", "why_tests_cant": "It quantifies over arbitrary, also faulty, move generators; a test runs the generators there are.", "anchors": ["printemps/solver/solver.h: postprocess", "printemps/model/model.h: import_variable_values", "printemps/model/model.h: update", "printemps/solver/tabu_search/core/tabu_search_core.h", "printemps/solver/local_search/core/local_search_core.h"]}
{"id": "C81", "title": "An infeasible model is not reported as solved, without presolve or with inequalities only", "statement": "With presolve switched off, for every model as it is entered, with a solution or without: an answer that solve() reports as feasible gives the variables the values of a solution of the user's model and its true objective; so a model without solutions is never reported as feasible, whatever moves, options, clocks and random numbers. With presolve on the same holds for models with inequalities only, of which no two bound the same expression from both sides and none can reach 100000, if the removal of redundant set variables is off or right (C49). Without these conditions it fails: an equality with one variable and a fractional value (2 x = 1) is cut to an integer and dropped, an equality with one variable fixes it outside bounds that another dropped row has given it (x >= 1, then x = 0), and a row that asks for a bound beyond 100000 in size is dropped; such infeasible models are reported as feasible.", "quantifier": "every model with integer coefficients and constants (of any size without presolve), feasible or not, whose free binary variables have the bounds 0 and 1 or whose constraints are inequalities as described, and all moves, options, clocks and random choices", "why_tests_cant": "It ranges over all models, and infeasibility of a model is not something a test observes.", "anchors": ["printemps/solver/solver.h: solve", "printemps/solver/solver.h: postprocess", "printemps/model/model.h: setup", "printemps/preprocess/problem_size_reducer.h: remove_redundant_constraint_with_tightening_variable_bound"]}
{"id": "C82", "title": "The correction of initial values sets the variable that does the least harm", "statement": "When the initial values of a selection (a group of binary variables of which exactly one must be 1) are corrected, and none of its variables is fixed at 1, the variable that ends at 1 is one of the free variables that were at 1, or any free one if none was; among these it is the one with the least violation of the constraints in which it occurs, counting the variables chosen in the earlier corrected selections and those fixed at 1 and taking everything else as 0, and of equals the first. This holds for integer coefficients and violations that fit an int. Selections that needed no correction are not counted, and fractions of a violation are cut off: in both cases a variable can be set that violates a constraint although another would violate none.", "quantifier": "all models with integer data, all disjoint selections, all initial values and fixed variables for which the correction does not throw", "why_tests_cant": "It compares a choice with all others, for all constraints, selections and initial values.", "anchors": ["printemps/preprocess/verifier.h: verify_and_correct_selection_variables_initial_values"]}
{"id": "C83", "title": "What the stand-alone solver reports is true of the MPS file", "statement": "If the command line names an MPS file whose rows have integer coefficients and right-hand sides (of any size) and an option file that switches presolve off, and the run ends with a solution reported as feasible, then the reported values satisfy every row and bound of the file and every value asked for by the files of fixed and mutable variables, and the reported objective is that of the file at these values. So a file without such a solution is never reported as solved. A value asked for outside the bounds of the file makes the run end with an exception. One kind of column is not protected: of a column with the bounds [0, 0] or [1, 1] a file of fixed variables can overrule the bound, and the answer that breaks it is reported as feasible.", "quantifier": "all MPS, option, initial, fixed, mutable, selection and pair files, all other options, all moves, clocks and random numbers, all runs that end; columns with the bounds [0, 0] or [1, 1] are fixed by FX and not changed by the other files", "why_tests_cant": "It ranges over all files, options and runs, from the text of the files to the reported values.", "anchors": ["printemps/standalone/mps_solver.h: MPSSolver", "printemps/mps/mps.h: MPS::read_mps", "printemps/model/model.h: Model::import_mps, Model::setup", "printemps/solver/solver.h: Solver::solve", "printemps/preprocess/verifier.h"]}
{"id": "C84", "title": "The solution file says what was found and can be given back", "statement": "If the command line names an MPS file whose rows have integer coefficients and right-hand sides (of any size) and an option file that switches presolve off, and the run gets as far as writing incumbent.sol, then the first line of this file says that no feasible solution was found, or the file gives every column of the MPS file, under its name, a value, these values satisfy every row, bound and value asked for, and the first line shows their objective. In the second case the same command line with this file as initial solution (-i) is accepted and every variable starts at its value, if the objective fits an int. If it does not, reading the file is undefined behaviour, because the line of the objective is converted to an int like that of a variable.", "quantifier": "all MPS, option, initial, fixed, mutable, selection and pair files, all other options, all moves, clocks and random numbers, all runs that end, all ways to print the objective; columns with the bounds [0, 0] or [1, 1] as in C83", "why_tests_cant": "It ranges over all files, options and runs, and over what is read back from the file of each of them.", "anchors": ["printemps/standalone/mps_solver.h: solve, setup", "printemps/solution/named_solution.h: write_solution", "printemps/helper/auxiliary_file_reader.h: read_names_and_values", "printemps/model/model.h: import_solution, export_named_solution"]}
{"id": "C85", "title": "The bound the stand-alone solver reports holds for the MPS file", "statement": "If the command line names an MPS file whose rows have integer coefficients and right-hand sides (of any size) and an option file that switches presolve off, then, however the run ends, the dual bound it has reached is at most the objective of every solution of the MPS file with the values the files of fixed and mutable variables ask for. So if a feasible answer is reported, it is a solution of the file, its objective is at least the bound, no solution is better by more than the difference, and if the two are equal the answer is optimal. This holds whether or not the linear relaxation and the Lagrange dual are solved; if the linear relaxation is, the bounds of the columns must be within the quarter range of int. (Otherwise a wrong bound can be reported when the relaxation is stopped early: the violation of the dual problem is compared with the tolerance only after division by the size of the objective.)", "quantifier": "all MPS, option, initial, fixed, mutable, selection and pair files, all other options, all moves, clocks and random numbers, all relaxations, all runs that get past the preparation; columns with the bounds [0, 0] or [1, 1] as in C83", "why_tests_cant": "It ranges over all files and runs, and compares the bound with all solutions of the file.", "anchors": ["printemps/standalone/mps_solver.h: setup, solve", "printemps/solver/solver.h: solve, run_pdlp, run_lagrange_dual", "printemps/solver/pdlp/controller/pdlp_controller.h", "printemps/solver/lagrange_dual/controller/lagrange_dual_controller.h", "printemps/model/model.h: import_mps, export_lp_instance, compute_naive_dual_bound"]}
{"id": "C86", "title": "With its default options the stand-alone solver reports only true solutions of an MPS file with inequalities", "statement": "If the command line names an MPS file whose rows are all inequalities with integer coefficients and right-hand sides, presolve is on (as it is by default) and the run reports a feasible solution, then the values it reports for the columns satisfy every row and bound of the file and every value the files of fixed and mutable variables ask for, and its objective is that of the file; so a file without a solution is not reported as solved, whatever presolve removes. This needs bounds within -99999..99999, rows that cannot get further than 99999 from their right-hand side within the bounds (nor beyond an int with columns up to 100000), every column in some row (or with a cost of at least 1e-10, or with no cost and 0 between its bounds), no two rows that bound one expression from both sides (or no search for such pairs), and some coefficient other than 1 (or no removal of redundant set variables). (With an equality such as 2 x = 1, or with a row such as z <= -200000, a file without a solution is reported as solved with the default options.)", "quantifier": "all MPS, option, initial, fixed, mutable, selection and pair files, all other options, all moves, clocks and random numbers, all runs; columns with the bounds [0, 0] or [1, 1] as in C83; the other files leave every column a value", "why_tests_cant": "It ranges over all files and runs and over all assignments of a file.", "anchors": ["printemps/standalone/mps_solver.h: setup, solve", "printemps/model/model.h: import_mps, setup", "printemps/preprocess/problem_size_reducer.h", "printemps/solver/solver.h: solve"]}
{"id": "C87", "title": "The solver of the linear relaxation stays correct whenever it restarts", "statement": "Whenever the solver of the relaxation restarts, and whether from the current or from the averaged solution: the dual bound it offers bounds the objective (without its constant) over all solutions, its run ends, and the weight between primal and dual steps stays positive and within [1/(4e10), 4e10] (or the limits given by the first weight). Restarts do come: the number of iterations since the last restart is at most restart_threshold_artificial times the number of all iterations, plus restart_check_interval, plus 1. A restart comes exactly in the iterations with a check (not in the first two after a restart) in which the smaller of the gaps of the current and of the averaged solution is below restart_threshold_sufficient times the kept gap, or below restart_threshold_necessary times it and larger than at the last check, or too many iterations have passed; it goes on from the solution with that gap, which becomes the new baseline, and the weight becomes the square root of itself times the quotient of the dual and primal distances gone, unless one of these is not within [1e-5, 1e5]. (The kept gap is not that of the last restart but of the one before, and DBL_MAX after the first: the second restart comes at the first check. The gap that decides about restarts ignores violated rows: it is 0 at points that violate a row and are not optimal.)", "quantifier": "all problems, options, clocks and runs; bounds of the variables within the quarter range of int; whatever values a division by a distance of 0 gives", "why_tests_cant": "It ranges over all problems and all sequences of restarts.", "anchors": ["printemps/solver/pdlp/core/pdlp_core_state_manager.h: update_restart_information, compute_normalized_gap, update_restart_solution, update_primal_weight, setup_new_inner_loop", "printemps/solver/pdlp/core/pdlp_core.h: run"]}
{"id": "C88", "title": "With default options, the bound the stand-alone solver reports holds for every solution of an MPS file with inequalities", "statement": "For the command lines and MPS files of C86 (rows are inequalities with integer coefficients, presolve on): however the run ends, the dual bound it has reached is at most the objective of every solution of the file (with the values the other files ask for), whether or not the linear relaxation and the Lagrange dual were solved. If the run reports a feasible answer, no solution is better than it by more than the difference of its objective and the bound; if the two are equal, it is optimal. (If all coefficients are 1 and redundant set variables are removed, as is the default, this fails: for \"minimize -x - y, x + y + z >= 1, all binary\" an answer with the objective -1 and the bound -1 is reported, but the optimum is -2.)", "quantifier": "all MPS files, command lines, auxiliary files, options, moves, clocks and random numbers under the stated conditions", "why_tests_cant": "It ranges over all files and all runs, and compares with all solutions of the file.", "anchors": ["printemps/standalone/mps_solver.h: MPSSolver, solve", "printemps/solver/solver.h: solve", "printemps/model/model.h: setup, import_mps", "printemps/preprocess/problem_size_reducer.h: remove_redundant_set_variables"]}
{"id": "C89", "title": "With default options, the solution file of the stand-alone solver holds a true solution or says infeasible", "statement": "For the command lines and MPS files of C86 (rows are inequalities with integer coefficients, presolve on): if the stand-alone solver writes its solution file (incumbent.sol), the first line says that no feasible solution was found, or the file gives every column of the MPS file a value such that all rows, bounds and values asked for hold, and the first line shows the objective of these values; for a file without a solution it says infeasible. The file can be given back with -i: the same command line with it is accepted and every variable starts with the value of the solution, provided that the objective on the first line fits an int. (For files with an equality, or with a row that asks for more than 100000, this fails: the files of C86 without a solution get a solution file with an objective and values.)", "quantifier": "all MPS files, command lines, auxiliary files, options, moves, clocks and random numbers under the stated conditions", "why_tests_cant": "It ranges over all files and all runs, and over the second start with the file written by the first.", "anchors": ["printemps/standalone/mps_solver.h: MPSSolver, solve", "printemps/solution/named_solution.h: write_solution", "printemps/helper/auxiliary_file_reader.h: read_names_and_values", "printemps/model/model.h: import_solution, export_named_solution"]}
{"id": "C90", "title": "The JSON file of the stand-alone solver, read back, holds a true solution under the names of the columns", "statement": "For the command lines and MPS files of C89 (inequalities, default options) and for those of C84 (presolve off): if the run reports a feasible answer, then the file incumbent.json is one that the JSON reader of the library accepts, and what it reads has the base name of the MPS file and the number of its columns, says that a feasible solution was found, holds under \"variables\" the name of every column with a value such that all rows, bounds and values asked for of the MPS file hold, and has as \"objective\" that of these values, exact if it has at most 7 significant digits and rounded to about as many otherwise. This holds whatever the sections about the rows say, for names free of the characters JSON uses and numbers within 1e300. (A name with brackets is not found again: C68.)", "quantifier": "all MPS files, command lines, auxiliary files, options, moves, clocks and random numbers under the stated conditions", "why_tests_cant": "It ranges over all files and all runs, and over what is read from the written file.", "anchors": ["printemps/standalone/mps_solver.h: solve", "printemps/solver/solver.h: postprocess", "printemps/model/model.h: export_named_solution", "printemps/solution/named_solution.h: write_json_by_name", "printemps/multi_array/value_proxy.h: create_json_object"]}
{"id": "C91", "title": "Every solution in the archive of feasible solutions is a true solution with its true objective", "statement": "For every proper, feasible model to which the GF(2) step of the preparation does nothing (C79), all options, neighborhoods, random numbers and clocks: every solution in the archive that solve() returns (feasible.json of the stand-alone solver) is, value for value, a solution of the user's model, has its objective and is marked as feasible. The best come first and there are never more than the capacity. Each search hands over, in order, exactly the feasible solutions its iterations visit; without the option nothing is stored. (If the GF(2) step fixes variables, the archive can hold what is not a solution, marked as feasible. The answer of solve() itself need not be in the archive: solutions visited before the first iteration of a search are not handed over.)", "quantifier": "all models, options, switched-on neighborhoods, moves, clocks, random numbers and capacities under the stated conditions", "why_tests_cant": "It ranges over all runs of all searches; the archive is filled from a model state that every move alters.", "anchors": ["printemps/solver/tabu_search/core/tabu_search_core.h: run", "printemps/solver/local_search/core/local_search_core.h: run", "printemps/solver/lagrange_dual/core/lagrange_dual_core.h: run", "printemps/solver/abstract_solver_controller.h: update_feasible_solution_archive", "printemps/solver/solver.h: solve", "printemps/model/model.h: export_sparse_solution", "printemps/solution/solution_archive.h: push"]}
{"id": "C92", "title": "The file of feasible solutions can be read back, and every solution in it is one of the MPS file", "statement": "Whatever solutions are written to feasible.json, if no name has a quotation mark, a line break or JSON punctuation and all numbers are within range, the JSON reader accepts the file and finds all of them in their order: the names and values of the listed variables exactly, objective and violation up to the digits written. For every command line and MPS file as in C84 (presolve off), if the option file asks for feasible solutions to be stored: the file is written, and for each of its solutions the values listed, with 0 for every column that is not listed, meet all rows, bounds and given values of the MPS file, and its objective is that of these values, in the sense of the file. It has no more solutions than the option allows. (Conditions: rows have different names; selections are off or no column is fixed at 1; flippable pairs are different binary columns; chain moves and step sizes as in C77. The answer itself need not be in the file: C91.)", "quantifier": "all lists of solutions and names; all command lines, MPS files, option files, file systems, moves, clocks and random numbers under the stated conditions", "why_tests_cant": "It ranges over all runs from the command line to the file; a name in the wrong place or a flipped sign shows only for some models.", "anchors": ["printemps/solution/solution_archive.h: write_solutions_json", "printemps/standalone/mps_solver.h: solve", "printemps/model/model.h: export_sparse_solution", "printemps/solution/sparse_solution.h: SparseSolution", "printemps/utility/json/json.h: write_json_object, parse_json_object"]}
{"id": "C93", "title": "The model written as a JSON file is the model", "statement": "For every model whose names have no quotation marks, line breaks or JSON punctuation and whose numbers are within range: the JSON file of the model (write_json, --export-json-instance) is accepted by the JSON reader and holds every variable with its name, value, bounds, kind and whether it is fixed, every constraint with its name, relation, right-hand side, coefficients and whether it is enabled, and the coefficients of the objective. If the numbers have at most seven digits, an assignment is a solution of the model in the file iff it is one of the model, and has the same objective up to the constant. (The constant of the objective is not written; a model without a name gets null; the names of array elements, which have brackets, come back changed; the stand-alone solver writes the file after the run, so what presolve has fixed is fixed in it.)", "quantifier": "all models, all orders in which coefficients are listed, all assignments", "why_tests_cant": "It ranges over all models and assignments; a coefficient under the wrong variable or a lost digit changes the solution set only for some.", "anchors": ["printemps/model/model.h: write_json, setup_unique_names", "printemps/standalone/mps_solver.h: solve", "printemps/utility/json/json.h: write_json_object, read_json_object"]}
{"id": "C94", "title": "The target objective value ends the search, and only if it is met", "statement": "For every prepared model, all options, moves, random numbers and clocks, with a target objective value the user has chosen: whether the problem is minimized or maximized, once a visited feasible solution is as good as the target no other search begins, and nothing more is visited except by the initial modifications of the round of the tabu search that is running. If no visited feasible solution is as good as the target, solve() does and returns the same as with a harder target or the default one. Without an objective and a target the first feasible solution ends the search. (A solution as good as the target by less than 1e-5 may not end it, if one that just misses the target was visited before.)", "quantifier": "all prepared models, options, moves offered, random numbers, clocks, targets above -0.99999e100", "why_tests_cant": "It ranges over all runs; a test sees that some run stops, not that none stops too early or goes on after the target was met by some search.", "anchors": ["printemps/solver/solver.h: setup_target_objective, solve", "printemps/solver/tabu_search/controller/tabu_search_controller.h: satisfy_reach_target_terminate_condition", "printemps/solver/tabu_search/core/tabu_search_core.h: satisfy_reach_target_terminate_condition", "printemps/solver/local_search/core/local_search_core.h: satisfy_reach_target_terminate_condition", "printemps/solver/lagrange_dual/core/lagrange_dual_core.h: satisfy_reach_target_terminate_condition"]}
{"id": "C95", "title": "The kinds of moves on offer follow the options and the course of the search", "statement": "For every model, all options and every course of the tabu search: moves of binary, integer and selection variables and the user's own moves are on offer in every iteration exactly if the option asks for the kind and the iteration's test lets the move pass. A move of a special kind (made from a constraint, or flipping a pair) is on offer exactly if moreover a round has used up its iterations without a better solution, no better solution was found since, and the move was not taken since the last such round. A chain move is on offer only under the same conditions, only if the model has a constraint it is good for, and only if it was built before that round and after the last better solution; if no duplicates were removed and the capacity was enough, every such chain move is. Only moves on offer are taken, and no special move is taken twice in a round.", "quantifier": "all options, all lists of moves, all sequences of iterations and rounds of the tabu search, any number of them", "why_tests_cant": "It ranges over all histories of rounds; a test can look at the switches after a few of them only.", "anchors": ["printemps/solver/solver.h: enable_default_neighborhood, preprocess", "printemps/solver/tabu_search/controller/tabu_search_controller_state_manager.h: enable_special_neighborhood_moves, disable_special_neighborhood_moves", "printemps/neighborhood/neighborhood.h: update_moves, reset_special_neighborhood_moves_availability", "printemps/model/model.h: setup_neighborhood", "printemps/neighborhood/chain_move_generator.h: register_move, clear_moves", "printemps/solver/tabu_search/core/tabu_search_core.h: run"]}
{"id": "C96", "title": "Chain moves are kept without duplicates, the best first, within the capacity", "statement": "For every list of chain moves whose variables lie within 2 GiB of memory and whose nearly equal overlap rates (within 1e-10) fall into groups: the order by which they are sorted meets what the sort asks of it, and sorting and removing equal neighbours leaves of every move exactly one of its duplicates, in the order of the overlap rates; dropping moves above the capacity drops the last ones. (Without either condition the comparison can go round in a circle, so the sort is given no order.)", "quantifier": "all lists of chain moves, all addresses, all overlap rates, all capacities, all results a sort may give", "why_tests_cant": "It ranges over all lists and address layouts; a test has small addresses that are close together.", "anchors": ["printemps/neighborhood/chain_move_generator.h: sort_moves, deduplicate_moves, reduce_moves", "printemps/neighborhood/move.h: operator==, setup_hash"]}
{"id": "C97", "title": "The overlap rate of a chain move measures what its variables have in common", "statement": "For every chain move, the ratio whose root is its overlap rate is the number of constraints (with binary coefficients) that all its variables occur in, divided by the number of those that some of them occurs in. It lies between 0 and 1, does not depend on the order of the variables, and is 1 exactly if all variables occur in the same constraints and in at least one.", "quantifier": "all chain moves with any number of variables, all relations between variables and constraints, all orders of the variables", "why_tests_cant": "It ranges over all models and moves; a test has one move of a few variables, in one order.", "anchors": ["printemps/neighborhood/move.h: setup_overlap_rate", "printemps/utility/unordered_set_utility.h: update_union_set, update_intersection_set"]}
