{"id": "C01", "title": "A circuit accepts exactly the tables that meet every request made through the circuit API", "statement": "After any sequence of add_gate / enable_selector / add_lookup_gate / add_copy_constraint / constant writes on a circuit and assignment pair, is_satisfied returns true on the final table if and only if every gate requested vanishes on every row it was enabled on, every lookup is in its table, and every copied pair holds equal values; reusing an existing selector for an equal gate changes nothing.", "quantifier": "all sequences of builder calls, all tables, all gates; gate equality is any relation that only identifies equivalent gates", "why_tests_cant": "The set of call sequences is infinite and the dedup path depends on earlier calls.", "anchors": ["include/nil/blueprint/blueprint/plonk/circuit.hpp: add_gate, add_lookup_gate, add_copy_constraint", "include/nil/blueprint/blueprint/plonk/assignment.hpp: enable_selector", "include/nil/blueprint/utils/satisfiability_check.hpp: is_satisfied", "include/nil/blueprint/gate_id.hpp"]}
{"id": "C02", "title": "Shifting a gate to other columns keeps its meaning", "statement": "Moving a constraint with the column mapper and evaluating it equals evaluating the original constraint on the table whose columns are read through the mapping, for every expression and row; equal mappings give the identity.", "quantifier": "all constraint expressions, mappings, tables, rows", "why_tests_cant": "Expressions are unbounded trees; tests cover a few gates.", "anchors": ["include/nil/blueprint/utils/gate_mover.hpp: gate_mover, expression_relativize_visitor-like visitors"]}
{"id": "C03", "title": "Native addition, subtraction and multiplication compute the field operation", "statement": "In every table satisfying the circuit generated for addition (subtraction, multiplication) the result variable equals x+y (x-y, x*y) of the input variables; the honest assignment satisfies the circuit, touches only the component rows, and the empty assignment writes the same result cell.", "quantifier": "all primes, all tables, all input variables outside the component, all row offsets and distinct columns", "why_tests_cant": "Tests run a handful of inputs with the honest prover; they never quantify over all field elements, and they never look at dishonest tables.", "anchors": ["include/nil/blueprint/components/algebra/fields/plonk/addition.hpp", "include/nil/blueprint/components/algebra/fields/plonk/subtraction.hpp", "include/nil/blueprint/components/algebra/fields/plonk/multiplication.hpp"]}
{"id": "C04", "title": "Multiplication by a constant computes const*x", "statement": "In every table satisfying the generated circuit the result equals the component constant times the input, for instances whose constant column is column 0 (see C29 for other columns).", "quantifier": "all primes, tables, constants, inputs, placements", "why_tests_cant": "Tests run a handful of inputs with the honest prover; they never quantify over all field elements, and they never look at dishonest tables.", "anchors": ["include/nil/blueprint/components/algebra/fields/plonk/multiplication_by_constant.hpp"]}
{"id": "C05", "title": "Division gates accept exactly quotients", "statement": "The division circuit is satisfiable for inputs x,y if and only if y is not zero, and then the result is x/y; division_or_zero is satisfiable for all inputs and its result is x/y, or 0 when y = 0.", "quantifier": "all primes, tables, inputs, placements", "why_tests_cant": "Tests run a handful of inputs with the honest prover; they never quantify over all field elements, and they never look at dishonest tables.", "anchors": ["include/nil/blueprint/components/algebra/fields/plonk/division.hpp", "include/nil/blueprint/components/algebra/fields/plonk/division_or_zero.hpp"]}
{"id": "C06", "title": "Flag components return the Boolean of their inputs for every column count", "statement": "For every supported number of witness columns, in every satisfying table the result of logic_and_flag is 1 if both inputs are nonzero and 0 otherwise; logic_or_flag returns 0 if both inputs are zero and 1 otherwise; the honest assignment is accepted.", "quantifier": "all primes, tables, inputs, placements, all witness amounts allowed by the manifest", "why_tests_cant": "Tests run a handful of inputs with the honest prover; they never quantify over all field elements, and they never look at dishonest tables.", "anchors": ["include/nil/blueprint/components/algebra/fields/plonk/logic_and_flag.hpp", "include/nil/blueprint/components/algebra/fields/plonk/logic_or_flag.hpp"]}
{"id": "C07", "title": "equality_flag returns exactly whether the inputs are equal", "statement": "In every satisfying table the result is 1 when x = y and 0 when x != y (reversed when the component is built as inequality); the honest assignment is accepted.", "quantifier": "all primes, tables, inputs, placements, both modes", "why_tests_cant": "Tests run a handful of inputs with the honest prover; they never quantify over all field elements, and they never look at dishonest tables.", "anchors": ["include/nil/blueprint/components/algebra/fields/plonk/non_native/equality_flag.hpp"]}
{"id": "C08", "title": "range_check accepts x if and only if 0 <= x < 2^bits", "statement": "For bits below the field size a table satisfying the range_check circuit exists for input value x exactly when the canonical representative of x is below 2^bits (instances on constant column 0, see C29).", "quantifier": "all primes, all bit counts with 2^bits <= p, all column counts, all tables", "why_tests_cant": "The set of inputs is 2^254 and the accepted set is defined by all tables, not the honest one.", "anchors": ["include/nil/blueprint/components/algebra/fields/plonk/range_check.hpp"]}
{"id": "C09", "title": "bit_decomposition outputs are the binary digits of the input", "statement": "In every satisfying table the output cells are bits and their weighted sum (in the chosen bit order) equals the input; so for bits < modulus bits they are exactly the binary digits of an input below 2^bits, and no satisfying table exists otherwise.", "quantifier": "all primes, bit counts, column counts, both modes, all tables", "why_tests_cant": "Tests run a handful of inputs with the honest prover; they never quantify over all field elements, and they never look at dishonest tables.", "anchors": ["include/nil/blueprint/components/algebra/fields/plonk/non_native/bit_decomposition.hpp", "include/nil/blueprint/components/algebra/fields/plonk/non_native/detail/bit_builder_component.hpp"]}
{"id": "C10", "title": "bit_composition returns the weighted sum of its input bits", "statement": "In every satisfying table the result equals the sum of input bits times powers of two in the chosen order; with input checking on, all inputs are bits.", "quantifier": "all primes, bit counts, column counts, both modes, both check flags, all tables", "why_tests_cant": "Tests run a handful of inputs with the honest prover; they never quantify over all field elements, and they never look at dishonest tables.", "anchors": ["include/nil/blueprint/components/algebra/fields/plonk/non_native/bit_composition.hpp", "include/nil/blueprint/components/algebra/fields/plonk/non_native/detail/bit_builder_component.hpp"]}
{"id": "C11", "title": "bit_shift_constant shifts", "statement": "Left shift returns x*2^s mod 2^bits, right shift returns floor(x/2^s), in every satisfying table with x < 2^bits.", "quantifier": "all primes, bits, shifts, modes, tables", "why_tests_cant": "Tests run a handful of inputs with the honest prover; they never quantify over all field elements, and they never look at dishonest tables.", "anchors": ["include/nil/blueprint/components/algebra/fields/plonk/bit_shift_constant.hpp"]}
{"id": "C12", "title": "comparison_unchecked accepts exactly the stated order on bounded inputs", "statement": "For inputs below 2^bits (2^(bits+1) <= p) the circuit is satisfiable iff x<y, x<=y, x>y, x>=y according to the mode.", "quantifier": "all primes, bits, column counts, modes, tables", "why_tests_cant": "Tests run a handful of inputs with the honest prover; they never quantify over all field elements, and they never look at dishonest tables.", "anchors": ["include/nil/blueprint/components/algebra/fields/plonk/non_native/comparison_unchecked.hpp"]}
{"id": "C13", "title": "comparison_checked enforces the stated order on arbitrary inputs", "statement": "If the constraints of comparison_checked hold (bits + 1 smaller than the size of the field), the order of the mode holds between the canonical values of the inputs, whatever they are; the smaller one and the difference are below 2^bits, rounded up to an even exponent when that fits in the field. For inputs below 2^bits in that order, generate_assignments produces a satisfying table and changes only cells of its own rows.", "quantifier": "all primes, bits, column counts, modes, tables", "why_tests_cant": "Tests run a handful of inputs with the honest prover; they never quantify over all field elements, and they never look at dishonest tables.", "anchors": ["include/nil/blueprint/components/algebra/fields/plonk/non_native/comparison_checked.hpp"]}
{"id": "C14", "title": "comparison_flag returns the comparison of its inputs", "statement": "If the constraints of comparison_flag hold, x < 2^bits, y < 2^bits (2^(bits+1) for odd bits and even column counts where the check of the first chunk is misplaced; then bits + 1 must be smaller than the field size) and the result is 1/0 (or -1/0/1 in FLAG mode) according to the comparison of the canonical values. generate_assignments satisfies the constraints for inputs below 2^bits; calculate and the empty assignments return the same value.", "quantifier": "all primes above 8, bits, column counts, modes, tables", "why_tests_cant": "Tests run a handful of inputs with the honest prover; they never quantify over all field elements, and they never look at dishonest tables.", "anchors": ["include/nil/blueprint/components/algebra/fields/plonk/non_native/comparison_flag.hpp"]}
{"id": "C15", "title": "division_remainder satisfies the division equation and accepts the Euclidean answer", "statement": "If the constraints hold and 2*bits is smaller than the field size, then x = y*q + r for an integer r with y - 2^bits < r <= y and q < 2^bits. For 0 < y, generate_assignments writes q = floor(x/y) and r = x mod y and satisfies the constraints; the empty assignments return the same values.", "quantifier": "all primes, bits, tables", "why_tests_cant": "Tests run a handful of inputs with the honest prover; they never quantify over all field elements, and they never look at dishonest tables.", "anchors": ["include/nil/blueprint/components/algebra/fields/plonk/non_native/division_remainder.hpp"]}
{"id": "C16", "title": "exponentiation returns base^exponent", "statement": "In every satisfying table the result is base^B for an integer B of 8*ceil(size/8) bits congruent to the exponent modulo p; when the exponent plus p does not fit in that many bits, the result is base to the canonical exponent. For every exponent below 2^size the honest assignment satisfies the circuit, touches only its rows and returns the power (witness column 5 used as W(5), constant column C(0) numbered like W(0)).", "quantifier": "all primes, bases, exponents, exponent sizes, tables, rows", "why_tests_cant": "Tests run a handful of inputs with the honest prover; they never quantify over all field elements, and they never look at dishonest tables.", "anchors": ["include/nil/blueprint/components/algebra/fields/plonk/exponentiation.hpp"]}
{"id": "C17", "title": "sqrt returns a square root, or -1 for non-squares", "statement": "Honest assignments satisfy the circuit for every odd p with (p-1)/2 < 2^256 and every input, touch only their rows, and return x with x*x = y if y is a square and -1 otherwise. In every satisfying table the result has the same property provided (p-1)/2 + p >= 2^256.", "quantifier": "all odd primes in the stated range, inputs, tables, rows; any field square-root function that is right on squares", "why_tests_cant": "Tests run a handful of inputs with the honest prover; they never quantify over all field elements, and they never look at dishonest tables.", "anchors": ["include/nil/blueprint/components/algebra/fields/plonk/sqrt.hpp", "include/nil/blueprint/components/algebra/fields/plonk/exponentiation.hpp"]}
{"id": "C18", "title": "Interpolation components return the unique interpolating polynomial", "statement": "In every satisfying table of linear_interpolation (quadratic_interpolation) the outputs are the coefficients of the unique polynomial of degree at most 1 (2) through the input points; points with equal abscissae are rejected.", "quantifier": "all primes, points, tables", "why_tests_cant": "Tests run a handful of inputs with the honest prover; they never quantify over all field elements, and they never look at dishonest tables.", "anchors": ["include/nil/blueprint/components/algebra/fields/plonk/linear_interpolation.hpp", "include/nil/blueprint/components/algebra/fields/plonk/quadratic_interpolation.hpp"]}
{"id": "C19", "title": "Boolean operation components compute their truth table", "statement": "For Boolean inputs, in every satisfying table logic_not/and/or/xor/nand/nor return the value of their truth table, and logic_select returns its second or third input according to a Boolean condition. Honest rows satisfy the circuit for every input (Boolean condition for select). The lookup-table versions accept a row exactly when both inputs are Boolean and the output is their and/xor.", "quantifier": "all primes, tables, inputs", "why_tests_cant": "Tests run a handful of inputs with the honest prover; they never quantify over all field elements, and they never look at dishonest tables.", "anchors": ["include/nil/blueprint/components/algebra/fields/plonk/non_native/logic_ops.hpp", "include/nil/blueprint/components/algebra/fields/plonk/non_native/detail/boolean_op_component.hpp", "include/nil/blueprint/components/algebra/fields/plonk/non_native/lookup_logic_ops.hpp", "include/nil/blueprint/components/algebra/fields/plonk/non_native/detail/boolean_lookup_op_component.hpp"]}
{"id": "C20", "title": "zkEVM ADD and SUB are addition and subtraction modulo 2^256", "statement": "In every table satisfying the zkEVM circuit, if row r starts an ADD (step selector nonzero), row r+1 is active with an implemented opcode and the chunk cells of rows r..r+2 hold 16-bit values, then the word of row r+2 is the sum of the words of rows r and r+1 modulo 2^256. For SUB the word of row r is the word of row r+2 minus that of row r+1 modulo 2^256. (Honest rows are accepted: C36.)", "quantifier": "all words, all tables, all primes above 2^51", "why_tests_cant": "Tests run a handful of inputs with the honest prover; they never quantify over all field elements, and they never look at dishonest tables.", "anchors": ["include/nil/blueprint/zkevm/operations/add_sub.hpp", "include/nil/blueprint/zkevm/zkevm_word.hpp", "include/nil/blueprint/zkevm/zkevm_circuit.hpp"]}
{"id": "C21", "title": "zkEVM ISZERO returns whether the word is zero", "statement": "In every table satisfying the zkEVM circuit, on every active row with opcode ISZERO and 16-bit operand chunks, the word in the result columns is 1 if the operand word is zero and 0 otherwise.", "quantifier": "all words, tables, primes above 2^21", "why_tests_cant": "Tests run a handful of inputs with the honest prover; they never quantify over all field elements, and they never look at dishonest tables.", "anchors": ["include/nil/blueprint/zkevm/operations/iszero.hpp", "include/nil/blueprint/zkevm/zkevm_circuit.hpp"]}
{"id": "C22", "title": "zkEVM MUL is multiplication modulo 2^256", "statement": "In every table satisfying the zkEVM circuit, if row r starts a MUL, row r+1 is active with an implemented opcode and the chunk and 64-bit carry cells are 16-bit, the word of row r+2 is the product of the words of rows r and r+1 modulo 2^256.", "quantifier": "all words, tables, primes above 2^196", "why_tests_cant": "Tests run a handful of inputs with the honest prover; they never quantify over all field elements, and they never look at dishonest tables.", "anchors": ["include/nil/blueprint/zkevm/operations/mul.hpp", "include/nil/blueprint/zkevm/zkevm_circuit.hpp"]}
{"id": "C23", "title": "zkEVM DIV enforces the product relation modulo 2^256 and the zero-divisor case", "statement": "In every table satisfying the zkEVM circuit, for a DIV started at row r, continued on row r+1, with row r+2 active and chunks 16-bit: quotient*b + remainder = a modulo 2^256; if b = 0 the quotient is 0 and the remainder a; if b is nonzero and the row selector cell of row r+2 is 1 the remainder differs from b.", "quantifier": "all words, tables, primes above 2^196", "why_tests_cant": "Tests run a handful of inputs with the honest prover; they never quantify over all field elements, and they never look at dishonest tables.", "anchors": ["include/nil/blueprint/zkevm/operations/div.hpp", "include/nil/blueprint/zkevm/zkevm_circuit.hpp"]}
{"id": "C24", "title": "Manifest calculus: intersection, subtraction, maximum and merge are exact on aligned parameters", "statement": "For witness-amount parameters (value, range with step, set) in which every range is at least as long as its start is away from a multiple of its step: intersecting accepts exactly the amounts both accept (ranges with equal steps must have equal residues); is_satisfiable holds exactly when some amount is accepted; max_value_if_sat is the largest accepted amount when the range starts at a multiple of its step; subtract removes exactly the listed amounts (range end a multiple of the step, or start not one); merge_with accepts only amounts that are at least some accepted amount of both parts, and accepts something; intersecting a component manifest with the compiler manifest accepts exactly the amounts the component accepts that are at most the maximum, with constants available if required.", "quantifier": "all parameters, all witness amounts, any correct extended gcd", "why_tests_cant": "Ranges, sets and steps combine in unboundedly many ways.", "anchors": ["include/nil/blueprint/manifest.hpp: manifest_param and subclasses, plonk_component_manifest, compiler_manifest"]}
{"id": "C25", "title": "Component batching gives every queued call its own verified result", "statement": "add_input returns the same result variables for equal calls (same component, same input variables) and variables with nothing in common for different calls; the value of the result variables is the component's result on the values of the inputs for every call made by generate_assignments, as long as no such call reads a result not computed yet and no assigned cell is overwritten. After finalize_component_batches: every table satisfying the final circuit gives the batch variables values that satisfy the remaining circuit as written and relate inputs and results of every call as the component demands; and if the component assignments are honest, the finalised table satisfies the final circuit and differs from the original only in the rows used for the batches, where the instances (including fillers of the last row) do not overlap.", "quantifier": "all histories of queued calls and other writes, all one-row components (any constraints, inputs, outputs), all column counts, start rows, surrounding circuits and tables", "why_tests_cant": "Histories, components and column counts are unbounded; soundness quantifies over all tables.", "anchors": ["include/nil/blueprint/component_batch.hpp: component_batch", "include/nil/blueprint/blueprint/plonk/assignment.hpp: add_input_to_batch, finalize_component_batches"]}
{"id": "C26", "title": "Finalising constant batches preserves the circuit", "statement": "finalize_constant_batches stores each batched constant in a row of its own of the constant column at or after the start row, redirects exactly the copy constraints that named it, changes no other cell, and leaves the verdict of the satisfiability check unchanged, provided that gates reading the column do so at a negative rotation or a rotation of at least the start row (so that the search sees them), selectors are 0/1, copy constraints name assigned cells, and dynamic tables do not read the column; when no gate reads the column the call cannot go out of bounds. (For other gates see C46.)", "quantifier": "all circuits, assignments, batched constants, lookup tables", "why_tests_cant": "Depends on the whole history of circuit construction.", "anchors": ["include/nil/blueprint/blueprint/plonk/assignment.hpp: finalize_constant_batches, add_batch_constant_variable"]}
{"id": "C27", "title": "The packing search distributes every task at less than twice the optimum", "statement": "huang_lu terminates and gives every task (non-negative sizes, at least one positive, distinct keys, at least one agent) an existing agent and nothing else; the load of the busiest agent is less than twice the load of the busiest agent in any distribution of the tasks.", "quantifier": "all task lists and agent counts", "why_tests_cant": "Unbounded task lists; optimality quantifies over all distributions.", "anchors": ["include/nil/blueprint/detail/huang_lu.hpp"]}
{"id": "C28", "title": "Private, public and constant variable reads return the last value written", "statement": "var_value of a variable returns the value most recently stored in the witness, constant, shared or public-column-0 cell, private storage slot or batch slot it names, and writing one of these never changes another; the variable returned for a batched constant is the same for equal constants and different for different ones; the allocated row count is one past the last witness, constant or enabled-selector row. (For other public columns and for selector variables see C31.)", "quantifier": "all histories of writes and reads", "why_tests_cant": "Histories are unbounded.", "anchors": ["include/nil/blueprint/blueprint/plonk/assignment.hpp: var_value, private_storage, shared, witness, constant, public_input"]}
{"id": "C29", "title": "Components behave the same whatever constant column they are given", "statement": "A component instance constructed with constant column k keeps its meaning: in every table satisfying its circuit the outputs relate to the inputs exactly as for an instance constructed with constant column 0.", "quantifier": "all instances, all constant columns, all tables", "why_tests_cant": "The unit tests always place components on constant column 0.", "anchors": ["include/nil/blueprint/components/algebra/fields/plonk/multiplication_by_constant.hpp: generate_gates", "include/nil/blueprint/components/algebra/fields/plonk/range_check.hpp: generate_copy_constraints", "include/nil/blueprint/components/algebra/fields/plonk/non_native/bit_decomposition.hpp: generate_copy_constraints", "include/nil/blueprint/components/algebra/fields/plonk/non_native/bit_composition.hpp: generate_copy_constraints"]}
{"id": "C30", "title": "Equal gates get equal identifiers and are added once", "statement": "For every choice of the random values behind gate identifiers, a gate (or lookup gate) whose constraints are listed in another order, or whose constraints are equal as polynomials, gets the same identifier.", "quantifier": "all random values, all constraint lists and permutations", "why_tests_cant": "Permutations and expressions are unbounded; the random values are drawn once per process.", "anchors": ["include/nil/blueprint/gate_id.hpp: gate_id, lookup_gate_id", "include/nil/blueprint/blueprint/plonk/circuit.hpp: add_gate"]}
{"id": "C31", "title": "Different requests are never confused: identifiers, raw selectors and column variables", "statement": "Two lookup gates that accept different tables get different identifiers for some random values; a row whose selector cell is one is checked; var_value of a public-column or selector variable reads that column.", "quantifier": "all random values, all states", "why_tests_cant": "Needs all random values at once.", "anchors": ["include/nil/blueprint/gate_id.hpp: eval_lookup_constraint", "include/nil/blueprint/utils/satisfiability_check.hpp: is_satisfied", "include/nil/blueprint/blueprint/plonk/assignment.hpp: selector, var_value"]}
{"id": "C32", "title": "comparison_checked rejects inputs that do not fit in bits", "statement": "The header promises that the inputs are checked to be below 2^bits: no satisfying table has an input of 2^bits or more.", "quantifier": "all tables", "why_tests_cant": "Tests run a handful of inputs with the honest prover; they never quantify over all field elements, and they never look at dishonest tables.", "anchors": ["include/nil/blueprint/components/algebra/fields/plonk/non_native/comparison_checked.hpp"]}
{"id": "C33", "title": "comparison_flag rejects inputs that do not fit and is right for every column count", "statement": "No satisfying table has an input of 2^bits or more, and the result is right, for every column count and every bits smaller than the field size.", "quantifier": "all tables and column counts", "why_tests_cant": "Tests run a handful of inputs with the honest prover; they never quantify over all field elements, and they never look at dishonest tables.", "anchors": ["include/nil/blueprint/components/algebra/fields/plonk/non_native/comparison_flag.hpp"]}
{"id": "C34", "title": "division_remainder returns only the Euclidean quotient and remainder", "statement": "In every satisfying table with y != 0, q = floor(x/y) and r = x mod y.", "quantifier": "all tables", "why_tests_cant": "Tests run a handful of inputs with the honest prover; they never quantify over all field elements, and they never look at dishonest tables.", "anchors": ["include/nil/blueprint/components/algebra/fields/plonk/non_native/division_remainder.hpp"]}
{"id": "C35", "title": "The zkEVM state selector picks exactly one option", "statement": "In every table satisfying a state_selector for n options, the item-index cell W(0) holds some k < n and, among the n option expressions, exactly the k-th is nonzero on the row. generate_assignments satisfies the constraints for every input value below n, writes that value into W(0) and changes only its own row.", "quantifier": "all primes, 1 <= n < p, all tables, columns, rows", "why_tests_cant": "Tests run a handful of inputs with the honest prover; they never quantify over all field elements, and they never look at dishonest tables.", "anchors": ["include/nil/blueprint/zkevm/state_selector.hpp"]}
{"id": "C36", "title": "Honest zkEVM programs are accepted and the table shows the EVM results", "statement": "For every program over ADD, SUB, MUL, DIV, ISZERO in which ISZERO is followed only by ISZERO, every stack of words deep enough and all register values, the calls constructor, assign_opcode..., finalize produce a table that satisfies the start, end and middle gates; the opcodes lie one after the other with their heights, and their rows hold the operands and the EVM result (sum, difference, product, quotient and remainder, zero test); rows outside the program are unchanged.", "quantifier": "all programs, stacks, register values, start rows, primes above 2^196", "why_tests_cant": "Tests run fixed short programs; programs and words are unbounded.", "anchors": ["include/nil/blueprint/zkevm/zkevm_circuit.hpp: assign_opcode, advance_rows, finalize, constructor", "include/nil/blueprint/zkevm/operations/*.hpp", "include/nil/blueprint/zkevm/state.hpp"]}
{"id": "C37", "title": "Rows of an accepted zkEVM trace form opcode blocks", "statement": "In every satisfying table, going down from a row that starts an opcode through active rows with implemented opcodes: each row lies in a block started at some row s with the same opcode on every row since s, no further start inside, at most height(opcode) rows, and rows_until_next_op equal to height-1 minus the distance to s; right after the last row of a full block an active row must start a new opcode. The columns pc, stack size, memory size and gas do not change from a row to the next unless a new opcode starts there.", "quantifier": "all tables, row ranges, primes above 149", "why_tests_cant": "Tests run a handful of inputs with the honest prover; they never quantify over all field elements, and they never look at dishonest tables.", "anchors": ["include/nil/blueprint/zkevm/zkevm_circuit.hpp: generate_generic_transition_constraints, constructor"]}
{"id": "C38", "title": "The EVM operation functions leave the machine stack as they found it", "statement": "assign_opcode returns with the same machine stack as before, for every opcode and stack on which it is defined.", "quantifier": "all opcodes, stacks, tables", "why_tests_cant": "Tests run a handful of inputs with the honest prover; they never quantify over all field elements, and they never look at dishonest tables.", "anchors": ["include/nil/blueprint/zkevm/operations/add_sub.hpp: generate_assignments", "include/nil/blueprint/zkevm/operations/mul.hpp: generate_assignments", "include/nil/blueprint/zkevm/operations/div.hpp: generate_assignments", "include/nil/blueprint/zkevm/operations/iszero.hpp: generate_assignments"]}
{"id": "C39", "title": "zkEVM DIV accepts only the Euclidean quotient and remainder", "statement": "In every satisfying table with 16-bit chunks and b nonzero, the quotient word is floor(a/b) and the remainder word is a mod b.", "quantifier": "all tables", "why_tests_cant": "Tests run a handful of inputs with the honest prover; they never quantify over all field elements, and they never look at dishonest tables.", "anchors": ["include/nil/blueprint/zkevm/operations/div.hpp"]}
{"id": "C40", "title": "The zkEVM circuit rejects every trace that is not a run of complete opcodes with 16-bit words", "statement": "In every satisfying table chunk cells are below 2^16, and an opcode that starts occupies as many rows as its height.", "quantifier": "all tables", "why_tests_cant": "Tests run a handful of inputs with the honest prover; they never quantify over all field elements, and they never look at dishonest tables.", "anchors": ["include/nil/blueprint/zkevm/zkevm_circuit.hpp", "include/nil/blueprint/zkevm/operations/add_sub.hpp"]}
{"id": "C41", "title": "Every honest zkEVM program is accepted", "statement": "The table produced by assign_opcode calls for any sequence of implemented opcodes satisfies the circuit.", "quantifier": "all programs", "why_tests_cant": "Tests run a handful of inputs with the honest prover; they never quantify over all field elements, and they never look at dishonest tables.", "anchors": ["include/nil/blueprint/zkevm/zkevm_circuit.hpp", "include/nil/blueprint/zkevm/operations/iszero.hpp", "include/nil/blueprint/zkevm/operations/add_sub.hpp"]}
{"id": "C42", "title": "State columns and selector inputs are linked to the execution", "statement": "Consecutive opcodes have consecutive pc and a stack size changed by the opcode; the standalone state selector component selects the option named by its input variable.", "quantifier": "all tables", "why_tests_cant": "Tests run a handful of inputs with the honest prover; they never quantify over all field elements, and they never look at dishonest tables.", "anchors": ["include/nil/blueprint/zkevm/zkevm_circuit.hpp", "include/nil/blueprint/zkevm/state_selector.hpp: generate_circuit"]}
{"id": "C43", "title": "exponentiation is exact and usable with any columns", "statement": "In every satisfying table of exponentiation with any exponent size the result is base to the canonical exponent, and honest assignments satisfy the circuit for any distinct witness columns and any constant column.", "quantifier": "all primes, sizes, columns, tables", "why_tests_cant": "Tests run a handful of inputs with the honest prover; they never quantify over all field elements, and they never look at dishonest tables.", "anchors": ["include/nil/blueprint/components/algebra/fields/plonk/exponentiation.hpp"]}
{"id": "C44", "title": "sqrt is sound in every field", "statement": "In every satisfying table of sqrt the result x satisfies x*x = y, or y is a non-square and x = -1.", "quantifier": "all odd primes, tables", "why_tests_cant": "Tests run a handful of inputs with the honest prover; they never quantify over all field elements, and they never look at dishonest tables.", "anchors": ["include/nil/blueprint/components/algebra/fields/plonk/sqrt.hpp"]}
{"id": "C45", "title": "Manifest calculus is exact for every range", "statement": "Without the alignment conditions of C24: intersection of ranges is exact, a range accepting an amount is satisfiable, its maximum is accepted, subtraction removes only the listed amounts, merge is always defined and never below a part, lenient checking of a set accepts exactly amounts at least a member, and set_max_witness_amount(n) allows n columns.", "quantifier": "all parameters", "why_tests_cant": "Tests run a handful of inputs with the honest prover; they never quantify over all field elements, and they never look at dishonest tables.", "anchors": ["include/nil/blueprint/manifest.hpp"]}
{"id": "C46", "title": "Finalising constant batches never overwrites a constant a gate reads", "statement": "For every circuit whose satisfiability check succeeds, finalize_constant_batches terminates without out-of-bounds access and the resulting circuit is satisfied.", "quantifier": "all circuits and assignments", "why_tests_cant": "The failing circuits need gates that read constant columns, which no unit test of batching uses.", "anchors": ["include/nil/blueprint/blueprint/plonk/assignment.hpp: finalize_constant_batches"]}
{"id": "C47", "title": "Flexible additions and multiplications compute every entry", "statement": "For every width of at least three columns and every list of input pairs, in every satisfying table of additions (multiplications) the i-th result is the sum (product) of the i-th pair; honest assignments satisfy the circuit and write only the component cells.", "quantifier": "all primes, widths, list lengths, tables, placements", "why_tests_cant": "Tests run a handful of inputs with the honest prover; they never quantify over all field elements, and they never look at dishonest tables.", "anchors": ["include/nil/blueprint/components/systems/snark/plonk/flexible/additions.hpp", "include/nil/blueprint/components/systems/snark/plonk/flexible/multiplications.hpp"]}
{"id": "C48", "title": "Flexible swap exchanges exactly when the bit is set", "statement": "In every satisfying table of swap the first input is 0 and the results are the other inputs in order, or it is 1 and the results are the inputs exchanged; honest assignments with a bit satisfy the circuit.", "quantifier": "all primes, tables, inputs, placements", "why_tests_cant": "Tests run a handful of inputs with the honest prover; they never quantify over all field elements, and they never look at dishonest tables.", "anchors": ["include/nil/blueprint/components/systems/snark/plonk/flexible/swap.hpp"]}
{"id": "C49", "title": "constant_pow computes the power from the first accumulator cell", "statement": "A constant_pow instance can be constructed exactly for exponents that are not a power of four. If the base-4 digits of the exponent do not fill the last row, then in every satisfying table the result is s^(4^digits) * x^pow where s is the first accumulator cell; the honest assignment satisfies the circuit for every exponent and in that case returns x^pow.", "quantifier": "all primes, widths, exponents, tables, placements", "why_tests_cant": "Tests run a handful of inputs with the honest prover; they never quantify over all field elements, and they never look at dishonest tables.", "anchors": ["include/nil/blueprint/components/systems/snark/plonk/flexible/constant_pow.hpp"]}
{"id": "C50", "title": "constant_pow returns the power in every satisfying table", "statement": "For every exponent a constant_pow instance can be constructed, and in every satisfying table its result is input^exponent.", "quantifier": "all primes, widths, exponents, tables", "why_tests_cant": "Tests run a handful of inputs with the honest prover; they never quantify over all field elements, and they never look at dishonest tables.", "anchors": ["include/nil/blueprint/components/systems/snark/plonk/flexible/constant_pow.hpp"]}
{"id": "C51", "title": "x_index relates the point to the index bits", "statement": "If the bits do not fill the rows, then in every satisfying table of x_index whose first cell is 1 and whose bits are 0 or 1, the point equals omega to the number formed by the complemented bits with the result bit on top; honest assignments satisfy the circuit for every point that is plus or minus that power and return 1 exactly for plus.", "quantifier": "all primes, widths, numbers of bits, omega with omega^(2^n) = -1, tables, placements", "why_tests_cant": "Tests run a handful of inputs with the honest prover; they never quantify over all field elements, and they never look at dishonest tables.", "anchors": ["include/nil/blueprint/components/systems/snark/plonk/flexible/x_index.hpp"]}
{"id": "C52", "title": "x_index forces the right bit for the given point", "statement": "In every satisfying table of x_index with bits as inputs the result is 0 or 1 and is the bit for which the point equals omega to the complemented index.", "quantifier": "all primes, widths, numbers of bits, tables", "why_tests_cant": "Tests run a handful of inputs with the honest prover; they never quantify over all field elements, and they never look at dishonest tables.", "anchors": ["include/nil/blueprint/components/systems/snark/plonk/flexible/x_index.hpp"]}
{"id": "C53", "title": "pow_factor evaluates the polynomial", "statement": "For every width 8B+2 and every list of coefficients, in every satisfying table of pow_factor the result is the polynomial with these coefficients (leading one first) evaluated at theta; honest assignments satisfy the circuit and write only component cells; the number of rows is the least that holds all coefficients.", "quantifier": "all primes, B >= 1, coefficient lists, tables, placements", "why_tests_cant": "Tests run a handful of inputs with the honest prover; they never quantify over all field elements, and they never look at dishonest tables.", "anchors": ["include/nil/blueprint/components/systems/snark/plonk/flexible/pow_factor.hpp"]}
{"id": "C54", "title": "colinear_checks rejects values that are not colinear", "statement": "In every satisfying table of colinear_checks each folding step over the input values is colinear at alpha.", "quantifier": "all primes, widths, steps, tables", "why_tests_cant": "Tests run a handful of inputs with the honest prover; they never quantify over all field elements, and they never look at dishonest tables.", "anchors": ["include/nil/blueprint/components/systems/snark/plonk/flexible/colinear_checks.hpp"]}
{"id": "C55", "title": "The Poseidon components compute the permutation", "statement": "In every satisfying table of the 15-column poseidon component, and of the flexible one of any width divisible by three placed in a circuit without earlier gates, the three results are the 55-round permutation of the three inputs; honest assignments satisfy the circuit and write only component cells.", "quantifier": "all primes, matrices, round constants, widths, tables, placements", "why_tests_cant": "Tests run a handful of inputs with the honest prover; they never quantify over all field elements, and they never look at dishonest tables.", "anchors": ["include/nil/blueprint/components/hashes/poseidon/plonk/poseidon.hpp", "include/nil/blueprint/components/systems/snark/plonk/flexible/poseidon.hpp"]}
{"id": "C56", "title": "The flexible Poseidon component is sound in every circuit", "statement": "In every satisfying table the results of the flexible poseidon component are the permutation of its inputs, whatever gates the circuit had before.", "quantifier": "all circuits, widths, tables", "why_tests_cant": "Every unit test places the component in an empty circuit, where the selectors coincide.", "anchors": ["include/nil/blueprint/components/systems/snark/plonk/flexible/poseidon.hpp"]}
{"id": "C57", "title": "Range check of a non-native element: honest and looked-up tables", "statement": "If the chunk cells of a satisfying table of the Ed25519 range component lie in the tables they should be looked up in (22, 21, 15 bits) and the flag cell is 0 whenever the low chunk is that of a number not below 2^255-19, the four limbs are the canonical representation of a number below 2^255-19. For every canonical element the honest assignment satisfies the circuit and its chunks lie in these tables.", "quantifier": "all primes of at least 2^254, tables, inputs, placements", "why_tests_cant": "Tests run a handful of inputs with the honest prover; they never quantify over all field elements, and they never look at dishonest tables.", "anchors": ["include/nil/blueprint/components/algebra/fields/plonk/non_native/range.hpp"]}
{"id": "C58", "title": "Non-native addition, subtraction and multiplication compute modulo 2^255-19", "statement": "In every satisfying table whose chunk cells lie in the tables they should be looked up in, and whose inputs are canonical, the result of addition (subtraction, multiplication) is canonical and equals the sum (difference, product) modulo 2^255-19. Honest assignments of instances in the first columns satisfy the circuit for canonical inputs (for subtraction: whenever the low limbs differ by at most 2^66-19, or no wrap is needed); generate_empty_assignments returns the same values.", "quantifier": "all primes of at least 2^254, tables, inputs, placements", "why_tests_cant": "Tests run a handful of inputs with the honest prover; they never quantify over all field elements, and they never look at dishonest tables.", "anchors": ["include/nil/blueprint/components/algebra/fields/plonk/non_native/addition.hpp", "include/nil/blueprint/components/algebra/fields/plonk/non_native/subtraction.hpp", "include/nil/blueprint/components/algebra/fields/plonk/non_native/multiplication.hpp", "include/nil/blueprint/basic_non_native_policy.hpp"]}
{"id": "C59", "title": "The non-native circuits reject wrong values by themselves", "statement": "In every satisfying table the range component holds only canonical elements, and addition, subtraction and multiplication return the value modulo 2^255-19.", "quantifier": "all tables, inputs, placements", "why_tests_cant": "Tests run a handful of inputs with the honest prover; they never quantify over all field elements, and they never look at dishonest tables.", "anchors": ["include/nil/blueprint/components/algebra/fields/plonk/non_native/range.hpp", "include/nil/blueprint/components/algebra/fields/plonk/non_native/addition.hpp", "include/nil/blueprint/components/algebra/fields/plonk/non_native/subtraction.hpp", "include/nil/blueprint/components/algebra/fields/plonk/non_native/multiplication.hpp"]}
{"id": "C60", "title": "Honest non-native subtraction and addition satisfy their circuits", "statement": "For all canonical inputs and every choice of nine distinct columns the table written by generate_assignments satisfies the circuit.", "quantifier": "all canonical inputs, placements", "why_tests_cant": "Random tests hit the failing low limbs with negligible probability, and every test uses the columns from 0.", "anchors": ["include/nil/blueprint/components/algebra/fields/plonk/non_native/addition.hpp", "include/nil/blueprint/components/algebra/fields/plonk/non_native/subtraction.hpp"]}
{"id": "C61", "title": "fri_lin_inter interpolates linearly", "statement": "If s is not zero, in every satisfying table of fri_lin_inter the result is the value at alpha of the line through (s, y0) and (-s, y1); the honest assignment satisfies the circuit and writes only component cells. If s is zero and y0 = y1, every result is accepted.", "quantifier": "all primes of at least 3, tables, inputs, placements", "why_tests_cant": "Tests run a handful of inputs with the honest prover; they never quantify over all field elements, and they never look at dishonest tables.", "anchors": ["include/nil/blueprint/components/systems/snark/plonk/placeholder/fri_lin_inter.hpp"]}
{"id": "C62", "title": "fri_array_swap keeps or exchanges every pair", "statement": "In every satisfying table of fri_array_swap whose flag is 0 the result is the input array; if the flag is 1 it is the array with the members of every pair exchanged. For flags 0 and 1 the honest assignment satisfies the circuit, writes only component cells and returns that array.", "quantifier": "all primes, array lengths, widths of at least 5, tables, placements", "why_tests_cant": "Tests run a handful of inputs with the honest prover; they never quantify over all field elements, and they never look at dishonest tables.", "anchors": ["include/nil/blueprint/components/systems/snark/plonk/placeholder/fri_array_swap.hpp"]}
{"id": "C63", "title": "fri_cosets returns the successive coset points of the challenge", "statement": "For an instance whose first constant column is column 0 and whose bits reach the end of the transition row, in every satisfying table of fri_cosets the k-th triple is (s, -s, b) with s = omega^(2^k * (x mod 2^n)) and b the bit n-1-k of the canonical representative of the challenge x; if omega^(2^n) = 1 then s = (omega^x)^(2^k). The honest assignment satisfies the circuit, writes only component cells and returns these triples.", "quantifier": "all primes of at least 3, widths 9l, numbers n of steps, omega, challenges, tables, placements", "why_tests_cant": "The layout depends on the width, n and the bit length of the field; tests use few of them. Uniqueness of the decomposition is a statement about all witnesses.", "anchors": ["include/nil/blueprint/components/systems/snark/plonk/placeholder/fri_cosets.hpp"]}
{"id": "C64", "title": "fri_cosets works in every constant column", "statement": "In every satisfying table of fri_cosets, for every choice of constant column, the triples are those of the component constant omega, and the honest assignment satisfies the circuit.", "quantifier": "all constant columns, tables", "why_tests_cant": "Every unit test uses constant column 0.", "anchors": ["include/nil/blueprint/components/systems/snark/plonk/placeholder/fri_cosets.hpp"]}
{"id": "C65", "title": "The permutation argument verifier returns its three terms", "statement": "For every m of at least 2, in every satisfying table of permutation_verifier the three results are L0 (1 - V), (1 - (q_last + q_pad)) (V_zeta prod_i(f_i + theta_1 Ssigma_i + theta_2) - V prod_i(f_i + theta_1 Se_i + theta_2)) and q_last (V^2 - V); the honest assignment satisfies the circuit, writes only component cells and returns these terms.", "quantifier": "all primes, m >= 2, tables, inputs, placements", "why_tests_cant": "Tests run a handful of inputs with the honest prover; they never quantify over all field elements, and they never look at dishonest tables.", "anchors": ["include/nil/blueprint/components/systems/snark/plonk/placeholder/permutation_argument_verifier.hpp"]}
{"id": "C66", "title": "The permutation argument verifier works for a single column", "statement": "For m = 1, in every satisfying table of permutation_verifier the three results are the terms of the permutation argument, and the honest assignment satisfies the circuit.", "quantifier": "all tables, m = 1", "why_tests_cant": "Every unit test uses more than one column.", "anchors": ["include/nil/blueprint/components/systems/snark/plonk/placeholder/permutation_argument_verifier.hpp"]}
{"id": "C67", "title": "The gate component sums the constraints weighted by powers of theta", "statement": "For every width of at least 3 and every list of at least two constraints, in every satisfying table of gate_component the result is q * sum_i theta^i C_i; the honest assignment satisfies the circuit, writes only component cells and returns that value.", "quantifier": "all primes, widths, numbers of constraints, tables, placements", "why_tests_cant": "Tests run a handful of inputs with the honest prover; they never quantify over all field elements, and they never look at dishonest tables.", "anchors": ["include/nil/blueprint/components/systems/snark/plonk/placeholder/detail/gate_component.hpp"]}
{"id": "C68", "title": "The gate argument verifier sums all gates with one run of powers of theta", "statement": "For every width of at least 3 and every non-empty list of gates with at least one constraint each, in every satisfying table of basic_constraints_verifier the result is the sum over the gates of q_g times the constraints of g weighted by consecutive powers of theta, the powers running on from gate to gate; the honest assignment satisfies the circuit, writes only component cells and returns that value.", "quantifier": "all primes, widths, lists of gates, tables, placements", "why_tests_cant": "Tests run a handful of inputs with the honest prover; they never quantify over all field elements, and they never look at dishonest tables.", "anchors": ["include/nil/blueprint/components/systems/snark/plonk/placeholder/gate_argument_verifier.hpp", "include/nil/blueprint/components/systems/snark/plonk/placeholder/detail/gate_component.hpp", "include/nil/blueprint/components/algebra/fields/plonk/multiplication.hpp"]}
{"id": "C69", "title": "f1_loop multiplies all lookup factors", "statement": "For every width of at least 4 and every m of at least 1, in every satisfying table of f1_loop the result is prod_i((1 + beta) gamma + s_i + beta t_i); the honest assignment satisfies the circuit, writes only component cells and returns that value.", "quantifier": "all primes, widths, lengths, tables, placements", "why_tests_cant": "The gates depend on the width modulo 3 and on the row modulo 3; tests run widths 4 to 10 on fixed lists, and no wrong table.", "anchors": ["include/nil/blueprint/components/systems/snark/plonk/placeholder/detail/f1_loop.hpp"]}
{"id": "C70", "title": "f3_loop sums the weighted differences", "statement": "For every width that is 4 or not a multiple of 4, and every m of at least 1, in every satisfying table of f3_loop the result is sum_i alpha_i (s_i - t_i). If the cells need more than one row, or the last cell of the row before holds 0, the honest assignment satisfies the circuit, writes only component cells and returns that value.", "quantifier": "all primes, widths, lengths, tables, placements", "why_tests_cant": "Tests run a handful of inputs with the honest prover; they never quantify over all field elements, and they never look at dishonest tables.", "anchors": ["include/nil/blueprint/components/systems/snark/plonk/placeholder/detail/f3_loop.hpp"]}
{"id": "C71", "title": "f3_loop is sound and complete for every permitted width and placement", "statement": "For every width that the manifest permits, in every satisfying table of f3_loop the result is sum_i alpha_i (s_i - t_i), and the honest assignment satisfies the circuit whatever the row before the component holds.", "quantifier": "all widths, tables, placements", "why_tests_cant": "Unit tests run widths 4 to 7 only, in an otherwise empty table, and check no wrong table.", "anchors": ["include/nil/blueprint/components/systems/snark/plonk/placeholder/detail/f3_loop.hpp"]}
{"id": "C72", "title": "The lookup argument verifier returns its four terms", "statement": "For every width that is 4 or not a multiple of 4, every list of tables and every list of gates with at least one option and one constraint, in every satisfying table of lookup_verifier the four results are (1 - V) L0, q_last (V^2 - V), mask (V_shifted H - V G) and L0 sum_i alpha_i (S0_{i+1} - S2_i), where H is the product of (1 + beta) gamma + s_i + beta s_{i+1} over the sorted columns and G the product of the same factors over the looked-up expressions and the table rows, each a selector times a table number and values weighted by powers of theta (table rows also times the mask). If the sum loop needs more than one row, or the last component column still holds zeros, the honest assignment satisfies the circuit, writes only component cells and returns these terms.", "quantifier": "all primes, widths, numbers and sizes of tables and gates, tables, placements", "why_tests_cant": "The layout depends on all table and gate sizes; tests run a few of them and no wrong table.", "anchors": ["include/nil/blueprint/components/systems/snark/plonk/placeholder/lookup_argument_verifier.hpp", "include/nil/blueprint/components/systems/snark/plonk/placeholder/detail/f1_loop.hpp", "include/nil/blueprint/components/systems/snark/plonk/placeholder/detail/f3_loop.hpp", "include/nil/blueprint/components/systems/snark/plonk/placeholder/detail/gate_component.hpp"]}
{"id": "C73", "title": "The lookup argument verifier works for every permitted width and placement", "statement": "For every width that the manifest permits (4 to 14), in every satisfying table of lookup_verifier the results are the four terms of the lookup argument, and the honest assignment satisfies the circuit whatever the cells of the component held before.", "quantifier": "all widths, tables, placements", "why_tests_cant": "Unit tests check no wrong table and start from an empty one.", "anchors": ["include/nil/blueprint/components/systems/snark/plonk/placeholder/lookup_argument_verifier.hpp", "include/nil/blueprint/components/systems/snark/plonk/placeholder/detail/f3_loop.hpp"]}
{"id": "C74", "title": "Expression evaluation gives the value of the expression", "statement": "For every expression with positive powers and every map of its variables, in every table that satisfies the circuit after finalisation of the batches, the variable returned by expression_evaluation_component stands for the value of the expression at the values of the mapped variables. If those values are there, generate_assignments is defined, its result has that value and no value that was there changes. A later evaluation by generate_circuit or generate_assignments returns the same variable and makes the same batched calls.", "quantifier": "all primes, expressions, variable maps, histories of batched calls before and after, orders of the batch maps, tables", "why_tests_cant": "Tests evaluate a handful of expressions in an otherwise empty assignment; sharing with calls made elsewhere and dishonest tables are not tested.", "anchors": ["include/nil/blueprint/components/systems/snark/plonk/placeholder/detail/expression_evaluation_component.hpp", "include/nil/blueprint/component_batch.hpp", "include/nil/blueprint/blueprint/plonk/assignment.hpp"]}
{"id": "C75", "title": "The final polynomial check fixes the values at every point and its negative", "statement": "In every table that satisfies the finalised circuit with the copy constraints of final_polynomial_check, the polynomial with the given coefficients (highest first) takes value 2i at point i and value 2i+1 at the negative of point i, for every i. If the values of all inputs are there, generate_assignments and generate_circuit are defined in either order, and when the polynomial takes the given values the finalised table satisfies the finalised circuit.", "quantifier": "all primes, degrees, numbers of points, histories of other batched calls, tables", "why_tests_cant": "Tests use a few polynomials and honest values only.", "anchors": ["include/nil/blueprint/components/systems/snark/plonk/verifier/final_polynomial_check.hpp", "include/nil/blueprint/components/systems/snark/plonk/placeholder/detail/expression_evaluation_component.hpp", "include/nil/blueprint/component_batch.hpp"]}
{"id": "C76", "title": "Unified addition adds any two curve points", "statement": "On every curve y^2 = x^3 + b without points on the axes (as Pallas and Vesta), for all points P and Q, equal, opposite or neutral included (the neutral element is written (0,0)): in every satisfying table of unified_addition the result cells hold P + Q; the honest assignment satisfies the circuit, writes only component cells and returns P + Q.", "quantifier": "all primes of at least 3, curves, points, tables, placements", "why_tests_cant": "The gate mixes five cases through auxiliary inverses; tests run a few points and no wrong table.", "anchors": ["include/nil/blueprint/components/algebra/curves/pasta/plonk/unified_addition.hpp"]}
{"id": "C77", "title": "endo_scalar computes the effective scalar", "statement": "For every field of at least 2^128 elements, in every satisfying table of endo_scalar whose first row starts the accumulators at 0, 2 and 2, the challenge is below 2^128 and the result is endo * a + b, where a and b are the signed digit sums that the bit pairs of the challenge select. With scalar_size 128 the honest assignment of every challenge below 2^128 is defined, satisfies the circuit, writes only component cells, starts the accumulators so and returns that value.", "quantifier": "all large primes, challenges, endomorphism constants, tables, placements", "why_tests_cant": "Tests compare a few challenges; 2^128 challenges and dishonest tables are out of reach.", "anchors": ["include/nil/blueprint/components/algebra/curves/pasta/plonk/endo_scalar.hpp"]}
{"id": "C78", "title": "endo_scalar fixes its result, for every permitted scalar size", "statement": "In every satisfying table of endo_scalar the result is the effective scalar of the challenge; for every scalar_size that the assertions of generate_assignments let pass, the honest assignment satisfies the circuit.", "quantifier": "all tables, scalar sizes", "why_tests_cant": "Unit tests check no wrong table and use scalar_size 128 only.", "anchors": ["include/nil/blueprint/components/algebra/curves/pasta/plonk/endo_scalar.hpp"]}
{"id": "C79", "title": "Variable base scalar multiplication computes the product when its base point is tied", "statement": "For a field of at least the Pallas size and a curve without points on the axes: in every satisfying table of variable_base_scalar_mul in which the base point cells of the first double row hold the input point, the constant cell the running scalar starts from holds 0 and the last range check accumulator continues the chain, the shifted scalar is below the group order, and if no ladder step is exceptional the result cells hold the product: -T, the neutral element and T for the shifted -1, 0 and 1, and the end of the double-and-add ladder for every other scalar, which is (2n + 2^255 + 1) T where the addition is associative. If the ladder runs through without exceptional step, the honest assignment satisfies the circuit, writes only component cells and meets those three conditions.", "quantifier": "both curves, all large enough fields, base points, scalars below the group order, tables, placements", "why_tests_cant": "Tests run some scalars honestly; dishonest tables and all 2^254 scalars are out of reach.", "anchors": ["include/nil/blueprint/components/algebra/curves/pasta/plonk/variable_base_scalar_mul.hpp", "include/nil/blueprint/components/algebra/curves/pasta/plonk/unified_addition.hpp"]}
{"id": "C80", "title": "Variable base scalar multiplication fixes its result and checks its scalar", "statement": "In every satisfying table of variable_base_scalar_mul the scalar is below the group order and the result cells hold the product of the input point; the honest assignment satisfies the circuit whatever the other cells of the table hold.", "quantifier": "all tables, Pallas and Vesta", "why_tests_cant": "Unit tests check no wrong table, and place the component at witness column 0 and constant column 0 or 1 of an empty table.", "anchors": ["include/nil/blueprint/components/algebra/curves/pasta/plonk/variable_base_scalar_mul.hpp"]}
{"id": "C81", "title": "The SHA-256 compression component computes the SHA-256 compression function", "statement": "Over a field above 2^128: calculate returns the FIPS 180-4 compression of the state and the block. If the 24 inputs are 32-bit words, the honest assignment of sha256_process satisfies the circuit and its lookups, writes only component cells and returns that hash value. Every satisfying table holds the 48 extended message words of the block. Every satisfying table whose outputs are reduced, in which the sparse forms of the input state are right and the cells the circuit leaves untied (d, h and the message word of each round, a and e of the first round and of the output row) are copies of what they stand for, returns the hash value; the honest table meets these conditions.", "quantifier": "all primes above 2^128, states, blocks, tables, placements", "why_tests_cant": "2^768 inputs; tests hash a handful of blocks and check no wrong table.", "anchors": ["include/nil/blueprint/components/hashes/sha2/plonk/sha256_process.hpp", "include/nil/blueprint/components/hashes/sha2/plonk/detail/split_functions.hpp", "include/nil/blueprint/lookup_library.hpp"]}
{"id": "C82", "title": "The SHA-256 compression circuit fixes its output", "statement": "In every satisfying table of sha256_process whose inputs are 32-bit words the eight outputs are 32-bit words and the compression of the inputs.", "quantifier": "all tables", "why_tests_cant": "Unit tests check no wrong table.", "anchors": ["include/nil/blueprint/components/hashes/sha2/plonk/sha256_process.hpp"]}
{"id": "C83", "title": "decomposition splits two 128-bit numbers into 32-bit words", "statement": "Over a field above 2^128: calculate returns the four big-endian 32-bit words of each input. If both inputs are below 2^128, the honest assignment of decomposition satisfies the circuit, writes only component cells and returns these words. In every satisfying table in which the 16 chunk cells are below 2^16, both inputs are below 2^128 and the eight outputs are their words.", "quantifier": "all primes above 2^128, inputs, tables, placements", "why_tests_cant": "2^256 inputs; tests run a few and check no wrong table.", "anchors": ["include/nil/blueprint/components/hashes/sha2/plonk/decomposition.hpp"]}
{"id": "C84", "title": "decomposition fixes its outputs", "statement": "In every satisfying table of decomposition the outputs are the 32-bit words of the two inputs.", "quantifier": "all tables", "why_tests_cant": "Unit tests check no wrong table.", "anchors": ["include/nil/blueprint/components/hashes/sha2/plonk/decomposition.hpp"]}
{"id": "C85", "title": "The SHA-256 component computes SHA-256 of its 64-byte input", "statement": "Over a field above 2^128: calculate returns the FIPS 180-4 digest of the 64 bytes that the four inputs stand for (16 big-endian bytes each), as two such numbers. If the inputs are below 2^128, the honest assignment of sha256 satisfies the circuit and its lookups, writes only component cells and returns that digest. Every satisfying table returns the digest if word 0 of the block is below 2^32, the row before the output row repeats the final state, and both compressions meet the conditions of C81; the honest table meets all these conditions.", "quantifier": "all primes above 2^128, messages of 64 bytes, tables, placements", "why_tests_cant": "2^512 messages; tests hash a handful and check no wrong table.", "anchors": ["include/nil/blueprint/components/hashes/sha2/plonk/sha256.hpp", "include/nil/blueprint/components/hashes/sha2/plonk/decomposition.hpp", "include/nil/blueprint/components/hashes/sha2/plonk/sha256_process.hpp"]}
{"id": "C86", "title": "The SHA-256 circuit fixes its digest", "statement": "In every satisfying table of sha256 the two outputs are the SHA-256 digest of the input.", "quantifier": "all tables", "why_tests_cant": "Unit tests check no wrong table.", "anchors": ["include/nil/blueprint/components/hashes/sha2/plonk/sha256.hpp"]}
{"id": "C87", "title": "The byte code table of the zkEVM holds whole contracts", "statement": "In every table that satisfies the zkevm_bytecode circuit (field of at least 256 elements), a header row followed by exactly m byte rows, m below the characteristic, forms a contract: the header holds the length m, the bytes are in 0..255 with indices 0 to m-1 and the hash of the header, the last row holds the random linear combination of all bytes under the challenge of the header, and the rows marked as instructions are, up to some position, exactly the instructions of the Ethereum rules, all of them defined, and none after it. If the push counter is at most 32 on these rows, the marks are right throughout. If the region starts with a header and the row below it is no byte row, every byte row belongs to such a contract.", "quantifier": "all primes from 256 up, tables, sizes, placements", "why_tests_cant": "Contracts of any length and dishonest tables; tests run honest tables of a few contracts.", "anchors": ["include/nil/blueprint/zkevm/bytecode.hpp", "include/nil/blueprint/lookup_library.hpp"]}
{"id": "C88", "title": "The byte code table holds the contracts it was given, with all their instructions", "statement": "In every satisfying table of zkevm_bytecode the table holds exactly the contracts of the input under their hashes, and every instruction of a contract is marked.", "quantifier": "all tables", "why_tests_cant": "Unit tests check no wrong table.", "anchors": ["include/nil/blueprint/zkevm/bytecode.hpp"]}
{"id": "C89", "title": "The byte code assignment of defined contracts is accepted", "statement": "If every byte vector of the input holds its length and then bytes in 0..255, all instructions are defined ones, the contracts fit into max_bytecode_size rows, the unused rows are zero, the row above is no byte row and the row below belongs to no contract, then the honest assignment of zkevm_bytecode satisfies the circuit and its lookups, writes only component cells, and its dynamic table holds the entries of all contracts, with the instructions marked by the Ethereum rules.", "quantifier": "all primes from 256 up, lists of contracts, tables, sizes, placements", "why_tests_cant": "Contracts of any number and length; tests run a few.", "anchors": ["include/nil/blueprint/zkevm/bytecode.hpp", "include/nil/blueprint/lookup_library.hpp"]}
{"id": "C90", "title": "The byte code component accepts every contract", "statement": "The honest assignment of zkevm_bytecode satisfies the circuit for every contract, and a satisfied circuit has all given contracts in its table.", "quantifier": "all contracts", "why_tests_cant": "Unit tests use contracts with defined instructions that fit.", "anchors": ["include/nil/blueprint/zkevm/bytecode.hpp", "include/nil/blueprint/lookup_library.hpp"]}
{"id": "C91", "title": "Addition of Ed25519 points computes the sum when its chunks are looked up", "statement": "For native fields of at least 2^254 elements and all points of Ed25519, equal, opposite or neutral included: in every satisfying table of complete_addition whose range and carry chunks have the sizes a lookup would give them, the result is the canonical form of the sum. The honest assignment of canonical points whose last difference subtracts (C60) satisfies the circuit, writes only component cells, has chunks of those sizes and returns the sum.", "quantifier": "all native primes from 2^254 up, curve points, tables, placements on columns 0 to 3 (completeness)", "why_tests_cant": "2^508 pairs of points; tests add a few and check no wrong table.", "anchors": ["include/nil/blueprint/components/algebra/curves/edwards/plonk/non_native/complete_addition.hpp", "include/nil/blueprint/components/algebra/fields/plonk/non_native/multiplication.hpp"]}
{"id": "C92", "title": "Addition of Ed25519 points fixes its result and accepts all points", "statement": "In every satisfying table of complete_addition the result is the sum of the points; the honest assignment satisfies the circuit for all points.", "quantifier": "all tables, points", "why_tests_cant": "Unit tests check no wrong table; the failing pairs are too rare to be hit at random.", "anchors": ["include/nil/blueprint/components/algebra/curves/edwards/plonk/non_native/complete_addition.hpp"]}
{"id": "C93", "title": "Doubling of Ed25519 points computes the double when two copies are added", "statement": "For native fields of at least 2^254 elements and all points of Ed25519: in every satisfying table of doubling whose chunks have the sizes a lookup would give them and in which limbs 1 and 2 of the two sides of the last check agree, the result is the canonical form of the double. If both differences of squares subtract, the honest assignment satisfies the circuit, writes only component cells, meets these conditions and returns the double.", "quantifier": "all native primes from 2^254 up, curve points, tables, placements on columns 0 to 3 (completeness)", "why_tests_cant": "2^254 points; tests double a few and check no wrong table.", "anchors": ["include/nil/blueprint/components/algebra/curves/edwards/plonk/non_native/doubling.hpp"]}
{"id": "C94", "title": "Doubling of Ed25519 points fixes its result", "statement": "In every satisfying table of doubling whose chunks have the sizes a lookup would give them the result is the double of the point.", "quantifier": "all tables", "why_tests_cant": "Unit tests check no wrong table.", "anchors": ["include/nil/blueprint/components/algebra/curves/edwards/plonk/non_native/doubling.hpp"]}
{"id": "C95", "title": "Multiplication of an Ed25519 point by a bool gives the point or the neutral element", "statement": "For native fields of at least 2^254 elements: in every satisfying table of bool_scalar_multiplication the scalar is 0 and the result the canonical neutral element, or it is 1 and the result has the limbs of the point. For a scalar that is 0 or 1 the honest assignment satisfies the circuit and writes only component cells; for a canonical curve point it returns scalar times point.", "quantifier": "all native primes from 2^254 up, limbs, tables, placements", "why_tests_cant": "Arbitrary limbs and dishonest tables; tests run a few honest ones.", "anchors": ["include/nil/blueprint/components/algebra/curves/edwards/plonk/non_native/bool_scalar_multiplication.hpp"]}
{"id": "C96", "title": "One step of the Ed25519 multiplication doubles and adds when two copies are added", "statement": "For native fields of at least 2^254 elements and all curve points T and R: in every satisfying table of variable_base_multiplication_per_bit whose chunks have the sizes a lookup would give them and whose doubling has the two copies of C93 added, the bit is 0 or 1 and the result is the canonical form of 2R + bit T. If the differences of both operations subtract, the honest assignment satisfies the circuit, writes only component cells, meets these conditions and returns that point.", "quantifier": "all native primes from 2^254 up, curve points, tables, placements on columns 0 to 3", "why_tests_cant": "2^508 pairs of points; tests check no wrong table.", "anchors": ["include/nil/blueprint/components/algebra/curves/edwards/plonk/non_native/variable_base_multiplication_per_bit.hpp"]}
{"id": "C97", "title": "Multiplication of an Ed25519 point by a scalar computes the multiple when two copies are added", "statement": "For native fields of at least 2^254 elements, all curve points and scalars, with bits_amount 253 and the order MSB: in every satisfying table of variable_base_multiplication whose 252 steps meet the conditions of C96 the scalar is below 2^253 and the result is the canonical form of scalar times point. If the differences on the way subtract, the honest assignment satisfies the circuit, writes only component cells, meets these conditions and returns that multiple.", "quantifier": "all native primes from 2^254 up, curve points, scalars, tables, placements on columns 0 to 3", "why_tests_cant": "2^253 scalars times 2^254 points; tests multiply a few and check no wrong table.", "anchors": ["include/nil/blueprint/components/algebra/curves/edwards/plonk/non_native/variable_base_multiplication.hpp", "include/nil/blueprint/components/algebra/curves/edwards/plonk/non_native/variable_base_multiplication_per_bit.hpp", "include/nil/blueprint/components/algebra/fields/plonk/bit_decomposition.hpp"]}
{"id": "C98", "title": "Multiplication of an Ed25519 point fixes its result, for every number and order of bits", "statement": "In every satisfying table of variable_base_multiplication whose chunks have the sizes a lookup would give them the result is scalar times point; the honest assignment returns it for every bits_amount and both bit orders the constructor accepts.", "quantifier": "all tables, bits_amount, modes", "why_tests_cant": "Unit tests check no wrong table and use 253 bits in the order MSB.", "anchors": ["include/nil/blueprint/components/algebra/curves/edwards/plonk/non_native/variable_base_multiplication.hpp", "include/nil/blueprint/components/algebra/curves/edwards/plonk/non_native/doubling.hpp"]}
{"id": "C99", "title": "The Ed25519 scalar range component splits a scalar into chunks", "statement": "Any table satisfying the circuit of scalar_non_native_range has a scalar equal, in the native field, to its twelve output chunks taken as digits to base 2^22. If besides the chunks of the scalar and of the shifted scalar have 22 bits, the last ones 11, and the native field has at least 2^254 elements, the scalar is below the group order and equals that number. The honest assignment of a scalar below the order satisfies the circuit, writes only its own three rows, and its chunks have those sizes.", "quantifier": "for all native fields, tables, components, rows and scalars", "why_tests_cant": "Unit tests run a few scalars and never check a table the prover did not write.", "anchors": ["include/nil/blueprint/components/algebra/curves/edwards/plonk/non_native/scalar_non_native_range.hpp"]}
{"id": "C100", "title": "The Ed25519 scalar range component rejects scalars not below the group order", "statement": "A table satisfying the circuit of scalar_non_native_range has a scalar below the order of the group of Ed25519.", "quantifier": "for all tables satisfying the circuit", "why_tests_cant": "Unit tests use scalars below the order and honest tables only.", "anchors": ["include/nil/blueprint/components/algebra/curves/edwards/plonk/non_native/scalar_non_native_range.hpp"]}
{"id": "C101", "title": "The Ed25519 scalar reduction returns a number congruent to its input", "statement": "If the circuit of reduction is satisfied, the eight inputs have 64 bits, the chunks have the sizes the component intends (20, 13, 7, 22 and 12 bits) and the native field has at least 2^254 elements, then the output is below 2^253 and congruent to the 512-bit input modulo the group order: it is the remainder or the remainder plus the order. The honest assignment satisfies the circuit for all 64-bit inputs, writes only its own four rows, meets those sizes and returns the remainder.", "quantifier": "for all native fields, tables, components, rows and 512-bit inputs", "why_tests_cant": "The inputs are 512-bit numbers; unit tests reduce a few of them and check no other table.", "anchors": ["include/nil/blueprint/components/algebra/fields/plonk/non_native/reduction.hpp"]}
{"id": "C102", "title": "The Ed25519 scalar reduction has one possible result", "statement": "For given inputs every table satisfying the circuit of reduction has the remainder modulo the group order as its output.", "quantifier": "for all tables satisfying the circuit", "why_tests_cant": "Unit tests compare honest results with the expected remainder and never try another table.", "anchors": ["include/nil/blueprint/components/algebra/fields/plonk/non_native/reduction.hpp"]}
{"id": "C103", "title": "Proxies share one circuit and one assignment, and their parts make up the whole", "statement": "For every history of calls through any number of circuit_proxy and assignment_proxy objects of one circuit and one assignment: the calls the proxies override act on the shared objects in order and return what they would return without proxies, the others act on the proxy that is called. A proxy reports as used exactly the gates and lookup gates whose selector was returned to it and the rows it wrote, and every copy constraint is reported by a proxy that asked for it. If all calls are overridden ones, selectors are only enabled, and a proxy enables only selectors returned to it, then the whole circuit is satisfied exactly when every part reported as used is satisfied on the shared assignment.", "quantifier": "all fields, random values behind gate identifiers, numbers of proxies, histories and lookup tables", "why_tests_cant": "Interleavings of calls of several provers; the test of the proxies runs one component in one proxy.", "anchors": ["include/nil/blueprint/blueprint/plonk/circuit_proxy.hpp", "include/nil/blueprint/blueprint/plonk/assignment_proxy.hpp", "include/nil/blueprint/utils/satisfiability_check.hpp"]}
{"id": "C104", "title": "The satisfiability check of a proxy checks its part of the circuit", "statement": "is_satisfied of a circuit_proxy and an assignment_proxy is true exactly when the gates, lookup gates and copy constraints reported as used hold on the rows reported as used.", "quantifier": "all histories of calls", "why_tests_cant": "The test of the proxies expects true on an honest table, which a check that evaluates no gate also returns.", "anchors": ["include/nil/blueprint/blueprint/plonk/assignment_proxy.hpp", "include/nil/blueprint/utils/satisfiability_check.hpp"]}
{"id": "C105", "title": "A call through a proxy has the effect of the call on the shared object", "statement": "Every call of circuit and assignment made through a proxy has the effect and result it has without the proxy, and a proxy reports only copy constraints it asked for.", "quantifier": "all histories of calls", "why_tests_cant": "The test of the proxies makes none of these calls.", "anchors": ["include/nil/blueprint/blueprint/plonk/circuit_proxy.hpp", "include/nil/blueprint/blueprint/plonk/assignment_proxy.hpp", "include/nil/blueprint/zkevm/bytecode.hpp"]}
{"id": "C106", "title": "A shared variable has the value of the given variable for every proxy", "statement": "save_shared_var returns a variable that had no value before and has the value of the given variable for every proxy afterwards, and changes no variable that has a value; the form for vectors returns distinct such variables in order. It succeeds for every variable with a value.", "quantifier": "all states, proxies, variables and vectors of variables", "why_tests_cant": "Any sequence of calls by any proxies; no unit test calls the function twice.", "anchors": ["include/nil/blueprint/blueprint/plonk/assignment_proxy.hpp", "include/nil/blueprint/blueprint/plonk/assignment.hpp"]}
{"id": "C107", "title": "The connectedness check answers whether constraints link the inputs and outputs", "statement": "On a circuit with one constant column whose constraints stay inside the component, check_connectedness returns a verdict, and it is true exactly when: (STRONG) every two inputs or outputs are linked by a chain of gates on rows with their selector on, lookup gates and copy constraints; (WEAK) every output is so linked to some input and every input to some output; (ISLANDS) moreover every cell any constraint mentions is linked to an input or output.", "quantifier": "all fields, circuits, assignments, inputs, outputs, start rows and row counts that fit", "why_tests_cant": "The check itself has no unit test, its verdict is not asserted by the component tests, and exactness quantifies over all circuits.", "anchors": ["include/nil/blueprint/utils/connectedness_check.hpp"]}
{"id": "C108", "title": "A component that passes the connectedness check is connected", "statement": "If check_connectedness accepts, the inputs and outputs are linked by constraints, for any component; and then (as its comment says) all inputs can affect all outputs.", "quantifier": "all circuits and assignments", "why_tests_cant": "The component tests discard the verdict: the assertion on it is commented out.", "anchors": ["include/nil/blueprint/utils/connectedness_check.hpp"]}
{"id": "C109", "title": "A stretched component is satisfied by the same computations as the component", "statement": "For a component without lookups, with one gate per selector, one constant column, constants of gates read on their own row and in no copy constraint, and inputs that are the first public inputs in order: whenever the layout is computed, the stretched circuit is defined; every table that satisfies it, read through the layout, meets the original circuit and result variables have the values of the original ones; and the assignment of the original component moved into empty cells satisfies it, writing nothing outside its cells.", "quantifier": "all fields, components of any number of rows, every assignment of zones to column groups, every order of constants, start rows and tables", "why_tests_cant": "The layout depends on the zones of the component, the packing and the order of hash maps; tests stretch a few components once, with public inputs in order.", "anchors": ["include/nil/blueprint/component_stretcher.hpp", "include/nil/blueprint/utils/gate_mover.hpp", "include/nil/blueprint/detail/huang_lu.hpp"]}
{"id": "C110", "title": "Any component can be stretched with any inputs", "statement": "The stretched component constrains the same relation between its inputs and results as the component, for any component and any input variables, its honest assignment is accepted, and rows_amount rows hold it.", "quantifier": "all components, inputs, widths", "why_tests_cant": "The tests of stretched components pass exactly the first public inputs in order and use components without lookups whose zones fill the groups evenly.", "anchors": ["include/nil/blueprint/component_stretcher.hpp"]}
{"id": "C111", "title": "The SHA-512 compression component computes the compression function", "statement": "Over a field above 2^180, with nine distinct witness columns and 64-bit input words outside the component's rows, the table sha512_process fills in has the FIPS 180-4 SHA-512 compression of the input state and block as its eight outputs and changes nothing outside the component's 1110 rows. It satisfies the circuit exactly when the round constants stand in the constant column of the index of the first witness column; in particular it does when that is the constant column of the component.", "quantifier": "all fields, columns, rows, input cells, states and blocks", "why_tests_cant": "2^1536 inputs; the unit tests of the component run a handful of blocks on one column layout.", "anchors": ["include/nil/blueprint/components/hashes/sha2/plonk/sha512_process.hpp"]}
{"id": "C112", "title": "A table satisfying the SHA-512 compression circuit has the compressed state as its output, on any columns", "statement": "A table satisfying the circuit of sha512_process has the SHA-512 compression of its inputs as its outputs, and the assigned table satisfies the circuit whatever columns the component is given.", "quantifier": "all tables satisfying the circuit; all columns", "why_tests_cant": "Unit tests check the honest table only, on columns 0 to 8 with constant column 0.", "anchors": ["include/nil/blueprint/components/hashes/sha2/plonk/sha512_process.hpp"]}
{"id": "C113", "title": "With checking on, a proxy reads exactly the rows it wrote", "statement": "After every history of calls, an assignment_proxy whose check is on returns the value of a witness exactly in the rows in which a write went through it and fails the assertion in all others; a constant also in the constant columns of lookup tables; public inputs and private and batch values as without the check.", "quantifier": "all fields, numbers of proxies, histories, variables and sets of lookup columns", "why_tests_cant": "Histories of several provers; the check is off in the unit tests.", "anchors": ["include/nil/blueprint/blueprint/plonk/assignment_proxy.hpp"]}
{"id": "C114", "title": "The recursive verifier circuit is satisfiable exactly when the transcript challenge and all Merkle openings are right", "statement": "In a circuit without earlier gates, with the swap components placed outside the rows of the instance and the inputs outside its cells: a table satisfying generate_circuit of plonk_flexible_verifier holds a proof whose challenge is the one the Poseidon transcript of keys and commitments gives, whose position bits are bits, whose batch values open in the committed trees and whose round values open in the trees of the following rounds. Conversely, whenever the inputs pass these checks, the cells of the instance can be filled so that the circuit is satisfied. The first FRI root, the values of the last round and the first hashes of the rounds are not read by any check. The rows used are those get_rows_amount announces.", "quantifier": "all fields, Poseidon constants, numbers of queries, rounds, batches and batch sizes, tree heights, columns, rows, placements, inputs and tables", "why_tests_cant": "Proofs of any size and any table; the unit test runs one recorded proof and never a wrong one.", "anchors": ["include/nil/blueprint/components/systems/snark/plonk/verifier/verifier.hpp"]}
{"id": "C115", "title": "The recursive verifier circuit checks the FRI folding and the query positions", "statement": "A table satisfying the circuit holds a proof whose query positions follow from the transcript, whose round values follow by folding from those of the round before, and whose FRI roots all are roots of trees with the opened values.", "quantifier": "all tables satisfying the circuit", "why_tests_cant": "The unit test runs one correct proof; no test tries to satisfy the circuit with a wrong one.", "anchors": ["include/nil/blueprint/components/systems/snark/plonk/verifier/verifier.hpp"]}
{"id": "C116", "title": "The recursive verifier reads each member of a proof where the wrapper puts it", "statement": "For a proof of the shape the parameters announce, with as many evaluations as the input type counts, whose wrapper vector fills the first public input column: every variable of placeholder_proof_input_type has the value of the member it stands for (commitments, challenge, FRI roots, positions, values, hashes, round values and round hashes of every query), the vectors have the same length, and the verifier circuit on these variables is satisfiable exactly when the challenge and all Merkle openings of the proof are right. The number of evaluations is that of the proof whenever each selector column has as many rotations as the column whose index is computed with the number of public input columns in place of that of constant columns.", "quantifier": "all fields, proofs, numbers of columns, rotations, queries, rounds, batches and tree heights, placements and tables", "why_tests_cant": "Proofs of any shape; the unit test runs one recorded proof.", "anchors": ["include/nil/blueprint/components/systems/snark/plonk/verifier/proof_input_type.hpp", "include/nil/blueprint/components/systems/snark/plonk/verifier/proof_wrapper.hpp", "include/nil/blueprint/components/systems/snark/plonk/verifier/verifier.hpp"]}
{"id": "C117", "title": "The variables of the recursive verifier fit every proof", "statement": "For every proof with one evaluation for each rotation of each column, the variables of placeholder_proof_input_type have the values of the members of the proof they stand for.", "quantifier": "all proofs and constraint systems", "why_tests_cant": "Whether the two indices coincide depends on the constraint system of the proof; a test has one.", "anchors": ["include/nil/blueprint/components/systems/snark/plonk/verifier/proof_input_type.hpp"]}
{"id": "C118", "title": "The recursive verifier accepts the table generated for an honest proof", "statement": "Take a proof whose challenge and Merkle openings are right, whose query points (the powers (p-1)/domain size of the transcript challenges) are the elements of the domain named by the position bits up to sign, and whose round values fold to the chosen value of the next round from the second round on. If the base 4 length of the exponent is not a multiple of the number of columns minus two, and the domain generator raised to two to the tree height is -1, generate_assignments raises no assertion, writes only the cells of the component and its swaps, and the table it produces satisfies the circuit.", "quantifier": "all fields of odd characteristic, Poseidon parameters, numbers of columns, queries, rounds, batches and tree heights with no more rounds than levels, placements, proofs and prior tables", "why_tests_cant": "Every proof and every table height; the unit test runs one recorded proof.", "anchors": ["include/nil/blueprint/components/systems/snark/plonk/verifier/verifier.hpp", "include/nil/blueprint/components/systems/snark/plonk/flexible/colinear_checks.hpp"]}
{"id": "C119", "title": "colinear_checks accepts the table generated for values that fold", "statement": "If the numbers of values, bits and challenges are those of r rounds and the values fold in every round that is not the first of its row of blocks, the table generate_assignments produces satisfies the gates, also in the blocks past the last round, and only the cells of the component are written.", "quantifier": "all fields of odd characteristic, r, column counts from 9, inputs and prior tables", "why_tests_cant": "The number of padding blocks and the overlaps depend on r and the width; tests use a few.", "anchors": ["include/nil/blueprint/components/systems/snark/plonk/flexible/colinear_checks.hpp"]}
{"id": "C120", "title": "The SHA-512 component accepts its table and outputs the compression of the packed inputs", "statement": "If the twenty limbs are in range (66 bits, 57 for the last limb of a coordinate, 58 for the last limb of the message) and the component uses the witness columns 0, 2, 4, 6 and the constant column 0, the table of generate_assignments satisfies the circuit, nothing outside the rows of the component changes, and the eight outputs are two SHA-512 compressions, from the initial state, of the 32 words of the number R.x + 2^255 R.y + 2^510 A.x + 2^765 A.y + 2^1020 M + 2^1276 + 2^1984 * 1276, the least significant word first.", "quantifier": "all prime fields of more than 180 bits, rows, inputs, limbs in range and prior tables", "why_tests_cant": "The words depend on the carries between 66-bit limbs and 64-bit words for all 1276 input bits; a test has one input.", "anchors": ["include/nil/blueprint/components/hashes/sha2/plonk/sha512.hpp", "include/nil/blueprint/components/hashes/sha2/plonk/sha512_process.hpp"]}
{"id": "C121", "title": "The SHA-512 component fixes its output, for any columns and with the padding of the standard", "statement": "A table that satisfies the circuit has the hash of the inputs as its output; this holds for every choice of columns; and the words hashed are those of FIPS 180-4 for the 1276 input bits.", "quantifier": "all fields, columns, inputs and tables", "why_tests_cant": "Tests run the honest assignment with one set of columns.", "anchors": ["include/nil/blueprint/components/hashes/sha2/plonk/sha512.hpp"]}
{"id": "C122", "title": "to_limbs outputs the limbs of the canonical representative and from_limbs puts two limbs together", "statement": "A table that satisfies to_limbs has, as its four outputs, the base 2^64 digits of the integer in [0, p) of the input, so no other decomposition of the input modulo p is accepted; the output of from_limbs is x + 2^64 y modulo p, and exactly x + 2^64 y for limbs below 2^64; from_limbs of the first two limbs of an element is its integer modulo 2^128. For every input the tables of generate_assignments satisfy the circuits and change nothing outside the rows of the components.", "quantifier": "all prime fields with 2^128 <= p <= 2^256, columns (constant column 0 for the range checks), rows, inputs and tables", "why_tests_cant": "That the second decomposition, of the input plus p, is rejected needs all tables of a prover, and the carries depend on the modulus.", "anchors": ["include/nil/blueprint/components/systems/snark/plonk/kimchi/detail/limbs.hpp", "include/nil/blueprint/components/algebra/fields/plonk/range_check.hpp"]}
{"id": "C123", "title": "The output of from_limbs fixes its two limbs", "statement": "Two tables that satisfy from_limbs with the same output have the same two limbs.", "quantifier": "all fields, columns, inputs and tables", "why_tests_cant": "Tests use limbs in range only.", "anchors": ["include/nil/blueprint/components/systems/snark/plonk/kimchi/detail/limbs.hpp"]}
{"id": "C124", "title": "The mocked integer operations assign the exact result when nothing overflows", "statement": "For a component on the first columns of the table, operands in range and a result in range, generate_assignments fills the result cells with the result over the integers: of the unsigned operations on BitsAmount bits and on two halves of 128 bits, of the unsigned comparisons, of the signed operations on a sign and a magnitude of BitsAmount bits, of the absolute values, and of the signed operations on 256 bits for operands and results that are not negative. A quotient is rounded towards zero and a remainder has the sign of the dividend. A division by zero throws. Nothing outside the row of the component changes.", "quantifier": "all prime fields that hold the parts of the numbers, bit sizes, operations, rows, operands and prior tables", "why_tests_cant": "Tests use a fixed list of operands; the carries between halves and the signs of quotients range over all integers of 256 bits.", "anchors": ["include/nil/blueprint/components/mock/mocked_component_base.hpp", "include/nil/blueprint/components/mock/mocked_components.hpp"]}
{"id": "C125", "title": "A mocked component fixes its result, on any columns and for all signs", "statement": "A table that satisfies the circuit holds the result of the operation in the result cells; this holds for every choice of columns; and the signed operations on 256 bits act on the number given by the sign and both halves.", "quantifier": "all fields, columns, operands and tables", "why_tests_cant": "Tests run the honest assignment on the first columns.", "anchors": ["include/nil/blueprint/components/mock/mocked_component_base.hpp", "include/nil/blueprint/components/mock/mocked_components.hpp"]}
{"id": "C126", "title": "The loader of lookup tables returns the numbers of the text, by columns", "statement": "If each line of the text is line_size numbers in base 16, of at most (modulus_bits + 15) / 16 digits of either case and with white space between them, parse_lookup_table succeeds and result[j][i] is the number j of line i; a line of such numbers but fewer of them, or a text with fewer lines than the table has rows, makes it return false. Lines with other characters are not covered.", "quantifier": "all prime fields, line sizes, numbers of rows, white space and digits", "why_tests_cant": "The texts are of any length and layout; tests load two fixed tables.", "anchors": ["include/nil/blueprint/detail/lookup_table_loaders.hpp"]}
{"id": "C127", "title": "The loader of lookup tables reads every field element", "statement": "If the numbers of a line are field elements in base 16, the line is read as these elements, or refused.", "quantifier": "all prime fields and lines", "why_tests_cant": "The tables in use have entries of a few digits.", "anchors": ["include/nil/blueprint/detail/lookup_table_loaders.hpp"]}
{"id": "C128", "title": "The generated reverse tables are the tables that SHA-256 looks up, for any number of threads", "statement": "With any number of threads up to 2^21 and in any order of the visits, generate_base4_reverse_table for 32-bit words gives exactly the pairs of eight base-4 digits and their parities, and generate_base7_reverse_table exactly the chunks that occur for some 32-bit word; as field elements these are the rows of the tables the SHA-256 component looks up. The first halves of the pairs of one word are the bytes of the four functions of SHA-256 at that word. If the number of threads divides the number of words the result does not depend on it at all.", "quantifier": "all numbers of threads up to 2^21, orders of the visits, pairs and prime fields", "why_tests_cant": "Running the generators takes 2^32 iterations and covers one schedule; tests compare nothing.", "anchors": ["include/nil/blueprint/components/hashes/sha2/plonk/detail/sha_table_generators.hpp"]}
{"id": "C129", "title": "The threads of the table generators visit every word", "statement": "For every number of threads that the static_assert accepts, each 32-bit word is visited by some thread.", "quantifier": "all accepted numbers of threads and all words", "why_tests_cant": "Tests use a power of two threads.", "anchors": ["include/nil/blueprint/components/hashes/sha2/plonk/detail/sha_table_generators.hpp"]}
