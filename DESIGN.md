# Design

A machine-checked model, in Coq 8.16.1, of the parts of zkllvm-blueprint listed
below, with theorems quantified over all inputs, tables and placements.

## Trusted base

- The Coq kernel.
- The reading of the C++ source: each definition cites the file and lines it
  models, and says what it simplifies.
- `Print Assumptions` is run after every property theorem (files
  `theories/Props_*.v`).  All of them print "Closed under the global context":
  no axiom of the standard library or of any other library is used.  (Loading
  the standard library brings the seven opaque `Coq.ssr.ssrunder.Under_rel.*`
  constants into scope; no theorem depends on them.)
- The field: `Field.v` builds the prime field Z/p for an arbitrary prime p
  (canonical residues, so equality is Leibniz equality).  Theorems hold for
  every prime unless a size hypothesis is stated.  The template parameter
  `BlueprintFieldType` is therefore any prime field; extension fields are not
  modelled.

## Method

- A component's `generate_circuit` is modelled as a list of commands: gate on
  rows (`add_gate` + `enable_selector`), lookup gate on rows, copy constraint,
  constant write.  `sat T cmds` says table `T` meets all of them.  The model of
  the circuit builder (property C01) ties the command list to the circuit object
  and to the satisfiability check.
- A component's `generate_assignments` is modelled as a function from tables to
  tables, writing cells in the order the code writes them.
- Completeness: the table produced by the honest assignment satisfies the
  circuit and the result cell holds the specified value.  Soundness: in *any*
  table satisfying the circuit the result cell holds the specified value.
- Specifications are separate small definitions over Z or the field; they do not
  mention gates or cells.
- When the code does not have the property, the theorem `..._refuted` exhibits a
  witness: a concrete table, placement or argument.
- Usual hypotheses: the instance's witness columns are distinct
  (`wf_comp`), and input variables lie outside the cells of the instance.
  Each theorem has an `Example` next to it with a concrete instance meeting the
  hypotheses.

## Not modelled

- crypto3 (field arithmetic, expression simplification, `plonk_variable`
  evaluation, proof system); only the meaning of these objects is used.
- Rotation wrap-around at the last row of a table.
- C++ compile-time machinery (concepts, template dispatch), printing and
  serialisation except where a property says otherwise.
- Machine integer overflow of row and column counters, except where a property
  is about it.
- Legacy headers that do not compile with the present component interface
  (old namespaces): `element_powers.hpp`, `combined_inner_product.hpp`.
- Headers without any model: `algorithms/`, `assert.hpp`, `benchmarks/`,
  `chips/`,
  `components/merkle_tree/plonk/`, `components/pubkey/`,
  `components/algebra/curves/edwards/plonk/non_native/ec_point.hpp` and
  `fixed_base_multiplication.hpp`, in
  `components/algebra/curves/pasta/plonk/` the fixed base, multi scalar,
  variable base endo scalar and tripling headers, `components/systems/snark/plonk/kimchi/` except
  the parts named by a property, and everything for R1CS (all `r1cs` directories,
  `pedersen.hpp`, `hmac_component.hpp`, `hash_io.hpp`, `component_from_r1cs.hpp`,
  `set_commitment`, the curve elements of `montgomery`, `twisted_edwards` and
  `weierstrass`).


## Properties: what is modelled and how it is proved

### C01 A circuit accepts exactly the tables that meet every request made through the circuit API

- Status: proved
- Model: Builder state (gates with selector numbers, selector columns, copy constraints, dedup map) and is_satisfied.
- Proof: induction over the call sequence
- Theorems: `builder_satisfied_iff_requests`, `builder_selectors`
- Note: Conditional on the random values separating the gates of the history, and on selectors being set by enable_selector (see C31).

### C02 Shifting a gate to other columns keeps its meaning

- Status: proved
- Model: Recursive rewriting of expressions over variables.
- Proof: structural induction on expressions
- Theorems: `gate_mover_renames`, `gate_mover_table`, `gate_mover_identity`, `gate_mover_composes`

### C03 Native addition, subtraction and multiplication compute the field operation

- Status: proved
- Model: generate_circuit, generate_assignments, generate_empty_assignments, result_type.
- Proof: ring reasoning over an arbitrary satisfying table
- Theorems: `addition_sound`, `addition_complete`, `addition_empty_agrees`, `subtraction_sound`, `subtraction_complete`, `subtraction_empty_agrees`, `multiplication_sound`, `multiplication_complete`, `multiplication_empty_agrees`

### C04 Multiplication by a constant computes const*x

- Status: proved
- Model: All functions of the component, including which constant column is written and which one the gate reads.
- Proof: ring reasoning over an arbitrary satisfying table
- Theorems: `mul_by_constant_sound`, `mul_by_constant_complete`, `mul_by_constant_empty_agrees`

### C05 Division gates accept exactly quotients

- Status: proved
- Model: All functions of both components.
- Proof: field reasoning; case split on y = 0
- Theorems: `division_sound`, `division_complete`, `division_empty_agrees`, `division_or_zero_sound`, `division_or_zero_complete`, `division_or_zero_empty_agrees`

### C06 Flag components return the Boolean of their inputs for every column count

- Status: proved
- Model: All layouts (row-major placement of the intermediate cells).
- Proof: field reasoning per layout
- Theorems: `and_flag_sound`, `and_flag_complete`, `and_flag_empty_agrees`, `or_flag_sound`, `or_flag_complete`, `or_flag_empty_agrees`

### C07 equality_flag returns exactly whether the inputs are equal

- Status: proved
- Model: All functions of the component.
- Proof: field reasoning
- Theorems: `equality_flag_sound`, `equality_flag_complete`

### C08 range_check accepts x if and only if 0 <= x < 2^bits

- Status: proved
- Model: Running-sum layout, both gates, row arithmetic.
- Proof: induction over rows; polynomial w(w-1)(w-2)(w-3) roots
- Theorems: `range_check_sound`, `range_check_sound_residue`, `range_check_complete`

### C09 bit_decomposition outputs are the binary digits of the input

- Status: proved
- Model: bit_builder layout (three-row gates, padding, sum bits), assignment, results.
- Proof: induction over gates; layout bijection lemmas
- Theorems: `bit_decomposition_sound`, `bit_decomposition_complete`, `bit_decomposition_empty_agrees`

### C10 bit_composition returns the weighted sum of its input bits

- Status: proved
- Model: As C09.
- Proof: As C09
- Theorems: `bit_composition_sound`, `bit_composition_complete`, `bit_composition_empty_agrees`, `bit_composition_unchecked_bits_refuted`

### C11 bit_shift_constant shifts

- Status: proved
- Model: Composition of bit_decomposition and bit_composition.
- Proof: from C09 and C10
- Theorems: `bit_shift_constant_sound`, `bit_shift_constant_complete`

### C12 comparison_unchecked accepts exactly the stated order on bounded inputs

- Status: proved
- Model: The component with its embedded range check.
- Proof: from C08
- Theorems: `comparison_unchecked_sound`, `comparison_unchecked_complete`

### C13 comparison_checked enforces the stated order on arbitrary inputs

- Status: proved
- Model: Layout, gates, copy constraints, assignments.
- Proof: closed form of the sums over the chunk rows; uniqueness of base-4 digits
- Theorems: `comparison_checked_sound`, `comparison_checked_bound`, `comparison_checked_bound_bits`, `comparison_checked_complete`

### C14 comparison_flag returns the comparison of its inputs

- Status: proved
- Model: Layout, gates, assignments, calculate, empty assignments.
- Proof: induction over the chunks with the running flag equal to the comparison of the prefixes
- Theorems: `comparison_flag_sound`, `comparison_flag_ok_cases`, `comparison_flag_complete`, `comparison_flag_calculate`, `comparison_flag_empty_agrees`

### C15 division_remainder satisfies the division equation and accepts the Euclidean answer

- Status: proved
- Model: Gates, embedded range checks, assignments.
- Proof: from C08; no wrap-around since y*q < 2^(2*bits)
- Theorems: `division_remainder_equation`, `division_remainder_complete`, `division_remainder_empty_agrees`

### C16 exponentiation returns base^exponent

- Status: proved
- Model: Bit and intermediate layout, gates, copy constraints, constants, assignment.
- Proof: induction over rows; binary decoding
- Theorems: `exp_sound`, `exp_exact`, `exp_complete`

### C17 sqrt returns a square root, or -1 for non-squares

- Status: proved
- Model: Composition of exponentiation, multiplication, addition and subtraction.
- Proof: Euler criterion (root counting), C03, C16
- Theorems: `sqrt_sound`, `sqrt_complete`

### C18 Interpolation components return the unique interpolating polynomial

- Status: proved
- Model: All functions.
- Proof: field reasoning with determinants
- Theorems: `linear_interpolation_sound`, `linear_interpolation_complete`, `quadratic_interpolation_sound`, `quadratic_interpolation_complete`

### C19 Boolean operation components compute their truth table

- Status: proved
- Model: Gates and lookup tables.
- Proof: field reasoning
- Theorems: `logic_sound`, `logic_select_sound`, `logic_complete`, `logic_select_complete_refuted`, `lookup_logic_sound`, `lookup_logic_complete`
- Note: logic_select_complete_refuted shows that the Boolean-condition hypothesis of the select component is needed for honest rows.

### C20 zkEVM ADD and SUB are addition and subtraction modulo 2^256

- Status: proved
- Model: Chunk layout, carries, constraints, position expressions, opcode selector, witness generation.
- Proof: carry-chain arithmetic over Z
- Theorems: `zkevm_add_sound`, `zkevm_sub_sound`

### C21 zkEVM ISZERO returns whether the word is zero

- Status: proved
- Model: Constraints and witness generation.
- Proof: a sum of 16-bit chunks vanishes in the field only if all do
- Theorems: `zkevm_iszero_sound`

### C22 zkEVM MUL is multiplication modulo 2^256

- Status: proved
- Model: 64-bit limb products and carries.
- Proof: arithmetic over Z
- Theorems: `zkevm_mul_sound`

### C23 zkEVM DIV enforces the product relation modulo 2^256 and the zero-divisor case

- Status: proved
- Model: Limb products, carries, inverse of the divisor sum, comparison chain.
- Proof: arithmetic over Z; what the chain of t and v cells really says is that some chunk differs
- Theorems: `zkevm_div_sound`

### C24 Manifest calculus: intersection, subtraction, maximum and merge are exact on aligned parameters

- Status: proved
- Model: The four parameter classes with check, is_satisfiable, max_value_if_sat, intersect, subtract, merge_with; component and compiler manifests. 32-bit overflow not modelled.
- Proof: Chinese remaindering over Z for ranges; the set of accepted amounts is an inductive specification
- Theorems: `manifest_intersect_exact`, `manifest_satisfiable_exact`, `manifest_max_exact`, `manifest_subtract_exact`, `manifest_merge_safe`, `manifest_merge_constants`, `compiler_intersect_exact`

### C25 Component batching gives every queued call its own verified result

- Status: proved
- Model: Queue of inputs and results on top of the assignment model; slot placement, scaled gate, copy constraints, variable replacement.
- Proof: closed form of the slot positions; invariants over histories; moved constraints read the shifted table
- Theorems: `batch_queue_shares`, `batch_queue_values`, `batch_sound`, `batch_complete`, `batch_slots`
- Note: The component is abstract: its constraints, input and output columns and the row its assignment writes are parameters; finalize_batch copies of the first input fill the last row. The order of the map of inputs is left open.

### C26 Finalising constant batches preserves the circuit

- Status: proved
- Model: Search for free cells with unsigned index arithmetic, variable replacement; on top of the assignment and circuit models.
- Proof: marks cover every read cell; induction over the placed constants
- Theorems: `finalize_constants_preserves`, `finalize_constants_places`, `finalize_constants_defined`

### C27 The packing search distributes every task at less than twice the optimum

- Status: proved
- Model: The threshold test and the binary search.
- Proof: loop invariants; a distribution with all loads below the threshold is compared with the greedy one
- Theorems: `packing_correct`, `packing_zero_refuted`
- Note: packing_zero_refuted shows that the hypothesis of one positive size is needed; the only caller passes sizes of at least 1.

### C28 Private, public and constant variable reads return the last value written

- Status: proved
- Model: The stores addressed by var_value.
- Proof: induction over histories
- Theorems: `var_value_last_write`, `allocated_rows_spec`, `batch_constant_variable`, `batch_variable`

### C29 Components behave the same whatever constant column they are given

- Status: partial
- Model: Which constant column is written and which one is read, for each component with constants.
- Proof: refuted by concrete accepted tables: the circuits write column C(0) but read constant column number 0
- Theorems: `mul_by_constant_constant_column_refuted`, `range_check_constant_column_refuted`, `bit_decomposition_constant_column_refuted`
- Note: The claim is false of the code: refuted by concrete accepted tables for three components. The behaviour on column 0 is proved under C04, C08-C11.

### C30 Equal gates get equal identifiers and are added once

- Status: proved
- Model: Identifier computation: evaluation at two points, stable sort, weighted sum.
- Proof: permutation invariance of insertion sort over the total order of pairs; structural induction on expressions
- Theorems: `gate_id_order`, `lookup_gate_id_order`, `gate_id_equal_polynomials`

### C31 Different requests are never confused: identifiers, raw selectors and column variables

- Status: partial
- Model: Same model as C01, C28, C30.
- Proof: refuted in all three parts by concrete histories, for every choice of random values
- Theorems: `lookup_gate_id_collision_refuted`, `raw_selector_unchecked_refuted`, `public_column_variable_refuted`, `selector_variable_refuted`
- Note: The claim is false of the code in each part: zero-input lookups into different tables share an identifier for every random choice, rows beyond the allocated ones are not checked, and variables of public columns above 0 or of selectors read other columns.

### C32 comparison_checked rejects inputs that do not fit in bits

- Status: partial
- Model: Same model as C13.
- Proof: refuted by accepted tables: the larger operand is unbounded, and with an odd bit count so is the top bit of the smaller one
- Theorems: `comparison_checked_range_refuted`, `comparison_checked_odd_range_refuted`
- Note: The claim is false of the code: refuted by concrete accepted tables. What does hold is C13.

### C33 comparison_flag rejects inputs that do not fit and is right for every column count

- Status: partial
- Model: Same model as C14.
- Proof: refuted for four columns and odd bits: the check of the first chunk of y is placed on x; with bits + 1 = field size the result is wrong
- Theorems: `comparison_flag_range_refuted`, `comparison_flag_result_refuted`
- Note: The claim is false of the code: refuted by concrete accepted tables. What does hold is C14.

### C34 division_remainder returns only the Euclidean quotient and remainder

- Status: partial
- Model: Same model as C15.
- Proof: refuted: the circuit bounds y - r but not r, so r = -1 and r = y pass
- Theorems: `division_remainder_refuted`
- Note: The claim is false of the code: refuted by a concrete accepted table. What does hold is C15.

### C35 The zkEVM state selector picks exactly one option

- Status: proved
- Model: Constraints, option_constraint, generate_assignments, generate_circuit.
- Proof: counting Boolean cells; parity decoding
- Theorems: `state_selector_sound`, `state_selector_complete`

### C36 Honest zkEVM programs are accepted and the table shows the EVM results

- Status: proved
- Model: The whole circuit constructor and witness generation for the five implemented opcodes.
- Proof: induction over the program; per-row case analysis of the middle gate
- Theorems: `zkevm_program_complete`

### C37 Rows of an accepted zkEVM trace form opcode blocks

- Status: proved
- Model: Generic transition constraints, first-row constraints, state selector.
- Proof: induction over rows
- Theorems: `zkevm_trace_blocks`, `zkevm_state_frozen`

### C38 The EVM operation functions leave the machine stack as they found it

- Status: proved
- Model: Stack effect of the witness generators.
- Proof: case analysis
- Theorems: `zkevm_machine_unchanged`

### C39 zkEVM DIV accepts only the Euclidean quotient and remainder

- Status: partial
- Model: Same model as C23.
- Proof: refuted: 10/3 = 4 remainder 2^256-2 with all selectors honest, and 3/3 = 0 remainder 3 with another row-selector option
- Theorems: `zkevm_div_euclid_refuted`, `zkevm_div_row_selector_refuted`
- Note: The claim is false of the code: refuted by concrete accepted tables. What does hold is C23.

### C40 The zkEVM circuit rejects every trace that is not a run of complete opcodes with 16-bit words

- Status: partial
- Model: Same model as C36.
- Proof: refuted: ADD of 0 and 0 with result chunks 65536 and -1; a DIV row followed directly by an ADD
- Theorems: `zkevm_add_range_refuted`, `zkevm_div_cut_refuted`
- Note: The claim is false of the code: refuted by concrete accepted tables (range checks are marked TODO in the source). What does hold is C37.

### C41 Every honest zkEVM program is accepted

- Status: partial
- Model: Same model as C36.
- Proof: refuted: after the one-row ISZERO the position expression step(-1) of ADD is active on the first row of ADD
- Theorems: `zkevm_iszero_add_refuted`
- Note: The claim is false of the code: the run ISZERO, ADD is rejected. Programs without a longer opcode right after ISZERO are proved accepted in C36.

### C42 State columns and selector inputs are linked to the execution

- Status: partial
- Model: Same model as C35, C36.
- Proof: refuted: any two register files can follow each other; generate_copy_constraints of the selector is never called
- Theorems: `zkevm_pc_refuted`, `zkevm_registers_free`, `state_selector_input_refuted`
- Note: The claim is false of the code: refuted by concrete accepted tables.

### C43 exponentiation is exact and usable with any columns

- Status: partial
- Model: Same model as C16.
- Proof: refuted: whenever exponent + p fits in size bits, base^(exponent+p) is accepted; the initial 1 is written to witness column 5 instead of W(5); constants are copied from constant column number W(0) instead of C(0)
- Theorems: `exp_exact_refuted`, `exp_columns_refuted`, `exp_constants_refuted`
- Note: The claim is false of the code: refuted. What does hold is C16.

### C44 sqrt is sound in every field

- Status: partial
- Model: Same model as C17.
- Proof: refuted for every p = 1 mod 8 with (p-1)/2 + p < 2^256 (for example BLS12-381): 0 is accepted as root of a non-zero element
- Theorems: `sqrt_sound_refuted`
- Note: The claim is false of the code: refuted for every field of characteristic 1 mod 8 in which a second exponent fits in 256 bits. What does hold is C17.

### C45 Manifest calculus is exact for every range

- Status: partial
- Model: Same model as C24.
- Proof: refuted by concrete parameters: range(0,10,2) and range(1,10,2) intersect to range(1,10,2); range(9,300,5) with at most 10 columns is judged unsatisfiable although 9 fits, and its maximum is computed as 295 instead of 299; range(0,5,2) minus 4 loses 2; merging {3} with range(5,10) dereferences end(); merging 5 with range(6,8,4) gives 5; a set {5,9} leniently accepts 3 and rejects 12; after set_max_witness_amount(15) 15 columns are rejected
- Theorems: `intersect_residue_refuted`, `satisfiable_refuted`, `max_refuted`, `subtract_refuted`, `merge_end_refuted`, `merge_small_refuted`, `lenient_set_refuted`, `set_max_refuted`
- Note: The claim is false of the code: each listed theorem refutes one part. What does hold is C24.

### C46 Finalising constant batches never overwrites a constant a gate reads

- Status: partial
- Model: Same model as C26.
- Proof: refuted: var_check compares the relative rotation of gate variables with the absolute start row, so a constant read at rotation 0 is not seen as used and is overwritten; a gate reading the constant of row 0 from row 1 makes the search index used_constants at -1
- Theorems: `finalize_overwrites_refuted`, `finalize_out_of_bounds_refuted`
- Note: The claim is false of the code: refuted by circuits built through the API. What does hold is C26.

### C47 Flexible additions and multiplications compute every entry

- Status: proved
- Model: All functions of the two components; the loop nest over rows and blocks.
- Proof: arithmetic of rows and blocks, ring reasoning
- Theorems: `flex_ops_sound`, `flex_ops_complete`

### C48 Flexible swap exchanges exactly when the bit is set

- Status: proved
- Model: All functions of the component.
- Proof: case split over the bit, ring reasoning
- Theorems: `flex_swap_sound`, `flex_swap_complete`

### C49 constant_pow computes the power from the first accumulator cell

- Status: proved
- Model: integral_type_log2, integral_type_four_chunks, constructor assertion, gates, copy constraints, assignment, result_type. The width of integral_type is not modelled.
- Proof: induction over digits
- Theorems: `constant_pow_constructs`, `constant_pow_sound`, `constant_pow_complete`

### C50 constant_pow returns the power in every satisfying table

- Status: partial
- Model: Same model as C49.
- Proof: refuted: the constructor assertion fails for every power of four; the first accumulator cell is not constrained, so 0 is accepted as the power of any element; if the number of digits is a multiple of the width minus 2, honest runs return x^(pow / 4^(width-2))
- Theorems: `constant_pow_sound_refuted`, `constant_pow_output_refuted`, `constant_pow_constructs_refuted`
- Note: The claim is false of the code: refuted for all fields. What does hold is C49.

### C51 x_index relates the point to the index bits

- Status: proved
- Model: All functions of the component; the assertion of the assignment is a distinct outcome.
- Proof: induction over bits
- Theorems: `x_index_sound`, `x_index_complete`

### C52 x_index forces the right bit for the given point

- Status: partial
- Model: Same model as C51.
- Proof: refuted by concrete tables over the field of 97 elements: a non-bit result, and a wrong bit with another first cell; when the bits fill the rows the circuit does not mention the point at all
- Theorems: `x_index_bit_refuted`, `x_index_sound_refuted`, `x_index_input_refuted`
- Note: The claim is false of the code: refuted. What does hold is C51.

### C53 pow_factor evaluates the polynomial

- Status: proved
- Model: All functions of the component: row recursion, padding, copy-constraint state machine.
- Proof: invariant of the state machine, Horner induction
- Theorems: `pow_factor_sound`, `pow_factor_complete`, `pow_factor_rows`

### C54 colinear_checks rejects values that are not colinear

- Status: partial
- Model: Gate, circuit, assignment. colinear_exact states exactly what the gate says.
- Proof: refuted: the copy constraints are commented out, so the circuit does not mention the inputs and can be satisfied next to any of them
- Theorems: `colinear_exact`, `colinear_sound_refuted`
- Note: The claim is false of the code: colinear_sound_refuted shows that the circuit constrains nothing about its inputs; colinear_exact states what the gate does say.

### C55 The Poseidon components compute the permutation

- Status: proved
- Model: All functions of both components; matrix and round constants are parameters.
- Proof: induction over rounds
- Theorems: `poseidon_sound`, `poseidon_complete`, `flex_poseidon_sound`, `flex_poseidon_complete`

### C56 The flexible Poseidon component is sound in every circuit

- Status: partial
- Model: Same model as C55, with the list of earlier gates.
- Proof: refuted: generate_circuit enables selectors 0, 1, ... instead of those of its own gates; with as many earlier gates as it needs, none of its gates is enabled and any output is accepted
- Theorems: `flex_poseidon_sound_refuted`
- Note: The claim is false of the code: refuted for all fields, constants and widths. What does hold is C55.

### C57 Range check of a non-native element: honest and looked-up tables

- Status: proved
- Model: All functions of the component. The lookups are a hypothesis because the code has none.
- Proof: bound on sums of chunks, Z arithmetic
- Theorems: `nn_range_sound_looked_up`, `nn_range_complete`

### C58 Non-native addition, subtraction and multiplication compute modulo 2^255-19

- Status: proved
- Model: All functions of the three components and the Ed25519 policy. Widths of integral types are not modelled.
- Proof: residue argument modulo 2^66 (2^257) and the native prime, size bounds
- Theorems: `nn_add_sound_looked_up`, `nn_sub_sound_looked_up`, `nn_mul_sound_looked_up`, `nn_add_complete`, `nn_sub_complete`, `nn_mul_complete`, `nn_empty_values`

### C59 The non-native circuits reject wrong values by themselves

- Status: partial
- Model: Same model as C57 and C58.
- Proof: refuted: no chunk is ever looked up; next to any inputs, for every prime, a table is built that satisfies the circuit with a result above 2^255-19; any four field elements pass the range component
- Theorems: `nn_range_sound_refuted`, `nn_add_sound_refuted`, `nn_sub_sound_refuted`, `nn_mul_sound_refuted`
- Note: The claim is false of the code: refuted for all fields and inputs. What does hold is C57 and C58.

### C60 Honest non-native subtraction and addition satisfy their circuits

- Status: partial
- Model: Same model as C58.
- Proof: refuted: subtraction of a number whose low limb exceeds that of the minuend by more than 2^66-19 needs a negative carry and is rejected; addition in columns 1 to 9 feeds the range part from columns 0 to 3 and returns a wrong sum
- Theorems: `nn_sub_complete_refuted`, `nn_add_columns_refuted`
- Note: The claim is false of the code: refuted. What does hold is C58.

### C61 fri_lin_inter interpolates linearly

- Status: proved
- Model: All functions of the component.
- Proof: field reasoning
- Theorems: `fri_lin_inter_sound`, `fri_lin_inter_complete`, `fri_lin_inter_zero_unconstrained`

### C62 fri_array_swap keeps or exchanges every pair

- Status: proved
- Model: All functions of the component. The gate manifest is not modelled.
- Proof: position arithmetic, induction over the array
- Theorems: `fri_array_swap_sound`, `fri_array_swap_complete`

### C63 fri_cosets returns the successive coset points of the challenge

- Status: proved
- Model: All functions of the component except the gate manifest. Sizes are unbounded integers; the statements assume that the count of remaining bits is not negative (in the code it is a std::size_t and would wrap).
- Proof: equations per cell for all rows and columns, bitwise comparison with p-1, induction over bits, blocks and rows
- Theorems: `fri_cosets_sound`, `fri_cosets_roots`, `fri_cosets_complete`

### C64 fri_cosets works in every constant column

- Status: partial
- Model: Same model as C63.
- Proof: refuted: the constants are written to column C(0) but the copy constraints read constant column 0; with C(0) = 1 another omega is accepted and the honest table is rejected
- Theorems: `fri_cosets_sound_refuted`, `fri_cosets_complete_refuted`
- Note: The claim is false of the code: refuted. What does hold is C63.

### C65 The permutation argument verifier returns its three terms

- Status: proved
- Model: All functions of the component.
- Proof: cells as running products, induction over the columns
- Theorems: `permutation_verifier_sound`, `permutation_verifier_complete`

### C66 The permutation argument verifier works for a single column

- Status: partial
- Model: Same model as C65.
- Proof: refuted by concrete tables over the field of 97 elements: with one column the first gate reads the cell of L0 in place of theta_2, and the third gate multiplies by the row before the component
- Theorems: `permutation_verifier_single_sound_refuted`, `permutation_verifier_single_complete_refuted`
- Note: The claim is false of the code: refuted. What does hold is C65.

### C67 The gate component sums the constraints weighted by powers of theta

- Status: proved
- Model: All functions of the component: rows, selectors, copy constraints. The gate manifest is not modelled.
- Proof: cells as a tape of partial Horner sums, position arithmetic, induction
- Theorems: `gate_component_sound`, `gate_component_complete`

### C68 The gate argument verifier sums all gates with one run of powers of theta

- Status: proved
- Model: All functions of the component with the components it calls.
- Proof: composition: every stage keeps the cells of the earlier ones; induction over the gates
- Theorems: `basic_constraints_sound`, `basic_constraints_complete`

### C69 f1_loop multiplies all lookup factors

- Status: proved
- Model: All functions of the component: the three gate layouts by width modulo 3. The gate manifest is not modelled.
- Proof: every product cell is covered by exactly the selector that reads its neighbours; induction over the products
- Theorems: `f1_loop_sound`, `f1_loop_complete`

### C70 f3_loop sums the weighted differences

- Status: proved
- Model: All functions of the component: the gate layouts by width modulo 4. The gate manifest is not modelled.
- Proof: every sum cell is covered by the selector that reads its neighbours; induction over the sums
- Theorems: `f3_loop_sound`, `f3_loop_complete`

### C71 f3_loop is sound and complete for every permitted width and placement

- Status: partial
- Model: Same model as C70.
- Proof: refuted: with 8 or 12 columns the loop that builds the later gates pushes the gate of the first sum cell again, so any output is accepted; a single-row instance enables a gate that reads the last cell of the row before
- Theorems: `f3_loop_wide_sound_refuted`, `f3_loop_single_row_complete_refuted`
- Note: The claim is false of the code: refuted. What does hold is C70.

### C72 The lookup argument verifier returns its four terms

- Status: proved
- Model: All functions of the component with the components it calls. The gate manifest is not modelled.
- Proof: composition of stages that keep the cells of the earlier ones; induction over tables, options, gates and constraints
- Theorems: `lookup_verifier_sound`, `lookup_verifier_complete`

### C73 The lookup argument verifier works for every permitted width and placement

- Status: partial
- Model: Same model as C72.
- Proof: refuted: with 8 or 12 columns a wrong fourth term is accepted; if the sum loop fits one row the circuit reads a cell of the component that generate_assignments never writes
- Theorems: `lookup_verifier_wide_sound_refuted`, `lookup_verifier_single_row_complete_refuted`
- Note: The claim is false of the code: refuted. What does hold is C72.

### C74 Expression evaluation gives the value of the expression

- Status: proved
- Model: The visitor and both generate functions, on top of the model of component batching; the addition, subtraction and multiplication batches are those on three columns. Expressions are built as written (no simplification by crypto3), and powers are not bounded by int.
- Proof: programs of batched calls: one induction for logs, repetition and definedness, weakest preconditions for the value
- Theorems: `expression_evaluation_sound`, `expression_evaluation_value`, `expression_evaluation_agrees`

### C75 The final polynomial check fixes the values at every point and its negative

- Status: proved
- Model: All functions of the component except the manifests.
- Proof: Horner evaluation against a sum of powers; reuse of the batching theorems
- Theorems: `final_polynomial_sound`, `final_polynomial_defined`, `final_polynomial_complete`

### C76 Unified addition adds any two curve points

- Status: proved
- Model: All functions of the component; the addition of crypto3 is modelled as the chord and tangent rule.
- Proof: case analysis over the kinds of points; field algebra. The group law of the statement is shown to stay on the curve, to commute and to have inverses; the base fields of Pallas and Vesta are shown prime and their curves free of points on the axes
- Theorems: `unified_addition_sound`, `unified_addition_complete`, `curve_addition_laws`, `pasta_curves_fit`

### C77 endo_scalar computes the effective scalar

- Status: proved
- Model: All functions of the component; the constant endo_r is a parameter.
- Proof: cubic interpolation of the crumb tables, induction over the 64 crumbs
- Theorems: `endo_scalar_sound`, `endo_scalar_complete`

### C78 endo_scalar fixes its result, for every permitted scalar size

- Status: partial
- Model: Same model as C77.
- Proof: refuted: no constraint ties the first row of the accumulators (columns 0, 2, 3), so for every challenge and every field element there is a satisfying table with that result; rows_amount is fixed at 8, so with scalar_size 112 the last row stays unwritten and the honest table fails
- Theorems: `endo_scalar_sound_refuted`, `endo_scalar_size_complete_refuted`
- Note: The claim is false of the code: refuted. What does hold is C77.

### C79 Variable base scalar multiplication computes the product when its base point is tied

- Status: proved
- Model: All functions of the component except the manifests. The affine addition of crypto3 is a parameter required to agree with the group law on curve points. That the ladder of a point of the Pasta group order meets no exceptional step, and that the curve addition is associative, are hypotheses.
- Proof: induction over the 255 steps; the slope equations give the group law of a regular step; the range check chain bounds the scalar; ladder against multiples by associativity
- Theorems: `vbsm_sound`, `vbsm_complete`, `vbsm_ladder_multiple`, `vbsm_special_scalars`

### C80 Variable base scalar multiplication fixes its result and checks its scalar

- Status: partial
- Model: Same model as C79.
- Proof: refuted over the two real base fields: no copy constraint ties the base point of the double rows to the input point, so with a neutral input every output is accepted and for one explicit curve point an output off the curve; the range check chain lacks its last link, so the group order itself is accepted as scalar; the running scalar is tied to a constant cell whose column number is that of the first witness column, so the honest table fails where that cell is in use
- Theorems: `vbsm_neutral_refuted`, `vbsm_base_refuted`, `vbsm_range_refuted`, `vbsm_const_refuted`
- Note: The claim is false of the code: refuted. What does hold is C79. Not settled: on Vesta the constants for the special scalars decode as n + 2^255 while the ladder gives 2n + 2^255 + 1.

### C81 The SHA-256 compression component computes the SHA-256 compression function

- Status: proved
- Model: All functions of the component except the manifests; all seven SHA-256 lookup tables. Two of the tables are read from files (8_split_4.txt, 8_split_7.txt): the model describes their contents as a set of rows, and the description was compared with the files. The round constants of the constant column are a hypothesis of soundness only through the circuit, which sets them. Integers are unbounded, and cached_pow is the integer power.
- Proof: sparse words as digit sums without carries; each gadget (sigma, Sigma, Maj, Ch, the two sums) once for all rounds; induction over the 48 schedule and 64 compression rounds; the specification is checked on the block abc
- Theorems: `sha256_calculate`, `sha256_process_complete`, `sha256_process_missing_copies_hold`, `sha256_schedule_sound`, `sha256_process_sound_with_missing_copies`

### C82 The SHA-256 compression circuit fixes its output

- Status: partial
- Model: Same model as C81.
- Proof: refuted: for every input and every other state and block there is a satisfying table whose outputs 1-3 and 5-7 come from the rounds on the other state and block and whose outputs 0 and 4 are any two words, because no copy constraint ties d, h and the message word of a round, the first a and e, nor the last a and e; an output of 2^32 or more is accepted, because only the carry of the final addition is checked; a wrong hash of abc is given in the Pallas field
- Theorems: `sha256_process_sound_refuted`, `sha256_process_output_range_refuted`, `sha256_process_wrong_hash_refuted`
- Note: The claim is false of the code: refuted. What does hold is C81.

### C83 decomposition splits two 128-bit numbers into 32-bit words

- Status: proved
- Model: All functions of the component except the manifests.
- Proof: uniqueness of base 2^32 digits; field equations lifted to integers below the characteristic
- Theorems: `decomposition_calculate`, `decomposition_complete`, `decomposition_sound_with_range_checks`

### C84 decomposition fixes its outputs

- Status: partial
- Model: Same model as C83.
- Proof: refuted: the chunks carry no range check, so for all inputs, also those that have no decomposition, any six field elements are accepted as words 1-3 and 5-7
- Theorems: `decomposition_sound_refuted`
- Note: The claim is false of the code: refuted. What does hold is C83.

### C85 The SHA-256 component computes SHA-256 of its 64-byte input

- Status: proved
- Model: All functions of the component with the components it calls, except the manifests.
- Proof: composition of the stages by frames; the padding of a 64-byte message; digits of joined words. The specification pads any message and is checked on the published digests of the empty message and abc
- Theorems: `sha256_hash_calculate`, `sha256_complete`, `sha256_missing_copies_hold`, `sha256_sound_with_missing_copies`

### C86 The SHA-256 circuit fixes its digest

- Status: partial
- Model: Same model as C85.
- Proof: refuted: generate_copy_constraints is empty and the row before the output row is not tied to the final state, so for every message any two field elements are accepted as digest, even when both compressions are honest; a table with the all-zero digest of the bytes 0 to 63 is given in the Pallas field
- Theorems: `sha256_sound_refuted`, `sha256_wrong_digest_refuted`
- Note: The claim is false of the code: refuted. What does hold is C85.

### C87 The byte code table of the zkEVM holds whole contracts

- Status: proved
- Model: generate_assignments, generate_gates and generate_circuit of zkevm_bytecode_table and zkevm_bytecode, and the lookup tables byte_range_table and zkevm_opcodes. Input values are read before the first write. Not the manifests and not bytecode_table_tester.
- Proof: the 18 constraints and 2 lookups as equations on three rows; induction along the rows; the push counter either follows the Ethereum rule or has become negative and never returns to zero
- Theorems: `bytecode_sound`, `bytecode_sound_marks`, `bytecode_rows_covered`

### C88 The byte code table holds the contracts it was given, with all their instructions

- Status: partial
- Model: Same model as C87.
- Proof: refuted: no copy constraint ties the inputs and the hash lookup is commented out, so any contracts under any hashes are accepted; the push counter has no range check, so all instructions from any position on can be hidden as data; a header without bytes can carry any length; the first row may be a byte row, so any defined instruction can be entered at any index under any hash without a contract
- Theorems: `bytecode_any_contracts_refuted`, `bytecode_hidden_code_refuted`, `bytecode_hidden_stop_refuted`, `bytecode_empty_length_refuted`, `bytecode_orphan_refuted`
- Note: The claim is false of the code: refuted. What does hold is C87.

### C89 The byte code assignment of defined contracts is accepted

- Status: proved
- Model: Same model as C87.
- Proof: every list of contracts with marks that are legal for the constraints is accepted; the honest rows are such a list
- Theorems: `bytecode_complete`

### C90 The byte code component accepts every contract

- Status: partial
- Model: Same model as C87.
- Proof: refuted: a contract with an undefined byte at an instruction position (0x0c, or data after the code) is rejected although Ethereum permits it; an unused row whose tag cell is neither 0 nor 1 is rejected; contracts larger than max_bytecode_size are accepted although the table holds only the rows that fit, because full_size is never compared with it
- Theorems: `bytecode_undefined_rejected_refuted`, `bytecode_dirty_rejected_refuted`, `bytecode_overflow_refuted`
- Note: The claim is false of the code: refuted. What does hold is C89.

### C91 Addition of Ed25519 points computes the sum when its chunks are looked up

- Status: proved
- Model: All functions of the component with the field components it calls, except the manifests. The affine addition of crypto3 is modelled as the addition formula of RFC 8032.
- Proof: chains of field operations handled once for all; the addition formula is complete because d is not a square, with 2^255 - 19 shown prime
- Theorems: `ed_addition_sound_looked_up`, `ed_addition_complete`

### C92 Addition of Ed25519 points fixes its result and accepts all points

- Status: partial
- Model: Same model as C91.
- Proof: refuted: no chunk is looked up, so next to any operands any eight field elements are accepted as their sum; where the last difference does not subtract the honest table is rejected, with an explicit pair of curve points
- Theorems: `ed_addition_sound_refuted`, `ed_addition_complete_refuted`
- Note: The claim is false of the code: refuted. What does hold is C91.

### C93 Doubling of Ed25519 points computes the double when two copies are added

- Status: proved
- Model: All functions of the component with the field components it calls, except the manifests.
- Proof: same chains as C91; the curve equation turns the checked products into the addition formula
- Theorems: `ed_doubling_sound_with_copies`, `ed_doubling_complete`

### C94 Doubling of Ed25519 points fixes its result

- Status: partial
- Model: Same model as C93.
- Proof: refuted: generate_copy_constraints compares columns 3 to 6 of two rows whose limbs are in columns 0 to 3, so limbs 1 and 2 are never compared; next to every point a result with a wrong second coordinate is accepted
- Theorems: `ed_doubling_sound_refuted`
- Note: The claim is false of the code: refuted. What does hold is C93.

### C95 Multiplication of an Ed25519 point by a bool gives the point or the neutral element

- Status: proved
- Model: All functions of the component except the manifests.
- Proof: the gate as equations on the cells
- Theorems: `ed_bool_multiplication_sound`, `ed_bool_multiplication_complete`

### C96 One step of the Ed25519 multiplication doubles and adds when two copies are added

- Status: proved
- Model: All functions of the component with the components it calls, except the manifests.
- Proof: composition of C91, C93 and C95
- Theorems: `ed_bit_multiplication_sound_with_copies`, `ed_bit_multiplication_complete`

### C97 Multiplication of an Ed25519 point by a scalar computes the multiple when two copies are added

- Status: proved
- Model: All functions of the component with the components it calls, except the manifests. The affine arithmetic of crypto3 is the addition formula of RFC 8032.
- Proof: induction over the bits with the part of the scalar read so far; the multiple is defined by repeated addition
- Theorems: `ed_multiplication_sound_with_copies`, `ed_multiplication_complete`

### C98 Multiplication of an Ed25519 point fixes its result, for every number and order of bits

- Status: partial
- Model: Same model as C97.
- Proof: refuted: for every even scalar the copies missing in the last doubling let a product with a wrong second coordinate through; the loop runs over outputs 0 to 252 whatever bits_amount is, so with n bits the result is k / 2^(n-253) times the point (1 times a point of order 2 gives the neutral element with 254 bits); with the order LSB the bits are read backwards (2^252 times a point of order 2 gives the point)
- Theorems: `ed_multiplication_sound_refuted`, `ed_multiplication_more_bits_sound`, `ed_multiplication_more_bits_refuted`, `ed_multiplication_lsb_refuted`
- Note: The claim is false of the code: refuted. What does hold is C97; ed_multiplication_more_bits_sound says what is computed with more bits.

### C99 The Ed25519 scalar range component splits a scalar into chunks

- Status: proved
- Model: EdScalarModel.v: generate_gates, generate_copy_constraints, generate_assignments and result_type.
- Proof: gates as linear equations over the integers modulo the characteristic; with the sizes both sides stay below 2^254
- Theorems: `scalar_range_chunks`, `scalar_range_sound_with_lookups`, `scalar_range_complete`

### C100 The Ed25519 scalar range component rejects scalars not below the group order

- Status: partial
- Model: Same model as C99.
- Proof: refuted: the chunks are never looked up, so eleven of the twelve output chunks can be any field elements; and even with every chunk of 22 bits each scalar up to 2^263 is accepted, the order itself among them, because the last chunk of the shifted scalar is not bounded by 11 bits
- Theorems: `scalar_range_sound_refuted`, `scalar_range_any_scalar`, `scalar_range_any_chunks`
- Note: The claim is false of the code: refuted. What does hold is C99.

### C101 The Ed25519 scalar reduction returns a number congruent to its input

- Status: proved
- Model: EdScalarModel.v: generate_gates, generate_copy_constraints, generate_assignments and result_type; the constants of the source are kept as written.
- Proof: the main equation holds modulo the characteristic, the second one modulo 2^69; together they leave no room below 2^69 times the characteristic
- Theorems: `scalar_reduction_sound_with_lookups`, `scalar_reduction_two_results`, `scalar_reduction_complete`

### C102 The Ed25519 scalar reduction has one possible result

- Status: partial
- Model: Same model as C101.
- Proof: refuted: no chunk is looked up, so every field element is accepted as the remainder of any input; and with every chunk of the intended size the remainder plus the order is accepted whenever it is below 2^253 and the quotient is not 0 (the order itself reduces to the order)
- Theorems: `scalar_reduction_sound_refuted`, `scalar_reduction_any_result`, `scalar_reduction_plus_order`
- Note: The claim is false of the code: refuted. What does hold is C101.

### C103 Proxies share one circuit and one assignment, and their parts make up the whole

- Status: proved
- Model: ProxyModel.v on top of the circuit and assignment of C01: every overridden call, the calls that are not overridden, the used sets, var_value with and without checking. Lookup table registration and export are left out.
- Proof: one invariant over histories; selectors of the shared circuit are distinct because it never sees an explicit selector
- Theorems: `proxies_transparent`, `proxies_used`, `proxies_used_copies`, `proxies_parts_cover`

### C104 The satisfiability check of a proxy checks its part of the circuit

- Status: partial
- Model: Same model as C103.
- Proof: refuted: the check reads selectors by the qualified call plonk_assignment_table::selector, which is the always empty column of the proxy itself, so no gate and no lookup is evaluated: for every history the check compares copied variables and nothing else (proxy_check_copies_only), and it accepts a violated gate and a violated lookup
- Theorems: `proxy_check_copies_only`, `proxy_check_refuted`
- Note: The claim is false of the code: refuted. What the check does is proxy_check_copies_only.

### C105 A call through a proxy has the effect of the call on the shared object

- Status: partial
- Model: Same model as C103.
- Proof: refuted: adding a gate to a given selector (as zkevm_bytecode does) leaves the shared circuit without the gate; get_dynamic_lookup_table_selector returns the selector of a gate; add_batch_variable of two proxies returns one variable for two values; a copy of a variable to itself marks the last constraint of another proxy
- Theorems: `proxy_gate_on_selector_refuted`, `proxy_dynamic_selector_refuted`, `proxy_batch_refuted`, `proxy_copy_mark_refuted`
- Note: The claim is false of the code: refuted. What does hold is C103.

### C106 A shared variable has the value of the given variable for every proxy

- Status: proved
- Model: Same model as C103, with both forms of save_shared_var.
- Wrong programs the theorems are meant to exclude: writes past the end of the shared column
- Theorems: `save_shared_var_correct`, `save_shared_var_vector`, `save_shared_var_defined`

### C107 The connectedness check answers whether constraints link the inputs and outputs

- Status: proved
- Model: ConnectModel.v: the addresses of cells, marking of gates and copies, the disjoint sets and the four checks; the disjoint sets by representatives (rank and path compression not modelled).
- Wrong programs the theorems are meant to exclude: joins only the first two variables of a gate, or ignores selectors; aliases cells; forgets a direction
- Theorems: `connectedness_strong_exact`, `connectedness_weak_exact`, `connectedness_islands_exact`

### C108 A component that passes the connectedness check is connected

- Status: partial
- Model: Same model as C107.
- Proof: refuted: all constant columns of a row share one address, so cells copied from different constants count as linked; a gate reading past the last row of the component hits the addresses of public inputs; a component whose output is 7 for every input passes the strongest check
- Theorems: `connectedness_constants_refuted`, `connectedness_rows_refuted`, `connectedness_affects_refuted`
- Note: The claim is false of the code: refuted. What does hold is C107.

### C109 A stretched component is satisfied by the same computations as the component

- Status: proved
- Model: StretchModel.v: generate_zones, the layout (line_mapping, constant_remapping), move_var, move_gate_var, move_circuit, move_assignment, rows_amount; the component is given by what its own functions leave in an empty circuit. The packing is arbitrary in the theorems, huang_lu in the examples.
- Wrong programs the theorems are meant to exclude: splits rows a gate joins; two rows or two constants in one place; constants of gates not moved; selectors of the wrong line
- Theorems: `stretch_defined`, `stretch_sound`, `stretch_complete`

### C110 Any component can be stretched with any inputs

- Status: partial
- Model: Same model as C109.
- Proof: refuted: generate_circuit uses the input without conversion and then deconverts it, so for other than the first public inputs in order the component computes something else, and an input in a witness column is taken for a cell of the component; rows_amount is the size of the largest zone and not of the fullest column group; a constant both read by a gate and copied is moved to one place only, a constant read by rotation may land in another line (honest assignments fail); lookup gates are dropped; of the gates on one selector only the last is switched on
- Theorems: `stretch_inputs_refuted`, `stretch_witness_input_refuted`, `stretch_rows_refuted`, `stretch_constants_refuted`, `stretch_lookups_refuted`, `stretch_selector_refuted`
- Note: The claim is false of the code: refuted. What does hold is C109.

### C111 The SHA-512 compression component computes the compression function

- Status: proved
- Model: Sha512Model.v: every gate, copy constraint and constant of generate_circuit, generate_assignments cell by cell, result_type. The 64-round schedule and 80 rounds are those of the source.
- Proof: the sparse forms in base 4 and 7 of 64-bit words, their rotations and the carries stay below the characteristic, so every gate is an identity of integers
- Theorems: `sha512_process_exact`, `sha512_process_value`, `sha512_process_complete`

### C112 A table satisfying the SHA-512 compression circuit has the compressed state as its output, on any columns

- Status: partial
- Model: Same model as C111.
- Proof: refuted: the words of the last round are not tied to the output rows, nothing is looked up and carries are free, so for every input any eight field elements are the outputs of a satisfying table (hash 0 of "abc"); and the gate of the rounds reads the round constant through W(0) as an index of a constant column, so with any other constant column the honest table is rejected
- Theorems: `sha512_process_sound_refuted`, `sha512_process_wrong_hash_refuted`, `sha512_process_columns_refuted`
- Note: The claim is false of the code: refuted. What does hold is C111.

### C113 With checking on, a proxy reads exactly the rows it wrote

- Status: proved
- Model: ProxyModel.v: x_value_checked; get_lookup_constant_cols is a parameter.
- Proof: a read of a row written by another proxy is a read the partial assignment of the prover cannot answer
- Theorems: `proxy_checked_value`

### C114 The recursive verifier circuit is satisfiable exactly when the transcript challenge and all Merkle openings are right

- Status: proved
- Model: VerifierModel.v: generate_circuit as a program of calls of the components modelled elsewhere (flexible poseidon, swap, constant_pow, x_index, colinear_checks), the constants, get_rows_amount. For generate_assignments see C118; the input is the struct of variables (for those of a proof see C116).
- Wrong programs the theorems are meant to exclude: a query or level skipped; a bit not checked; a path compared with the wrong root; the hashes of one round used for another
- Theorems: `verifier_sound`, `verifier_exact`, `verifier_unread`, `verifier_rows`

### C115 The recursive verifier circuit checks the FRI folding and the query positions

- Status: partial
- Model: Same model as C114.
- Proof: refuted: satisfied circuits with proofs that differ in one value of the last round only, in one position bit only, or in the first root only
- Theorems: `verifier_folding_refuted`, `verifier_position_refuted`, `verifier_root_refuted`
- Note: The claim is false of the code: refuted. What does hold is C114.

### C116 The recursive verifier reads each member of a proof where the wrapper puts it

- Status: proved
- Model: ProofLayoutModel.v: fill_vector of both classes and the accessors; the placeholder objects are given by the members read. The size of the final polynomial is a parameter.
- Wrong programs the theorems are meant to exclude: an offset of one shifts every later member; a member left out; positions of the wrong batch
- Theorems: `proof_layout`, `proof_vectors`, `verifier_proof`, `layout_shaped`

### C117 The variables of the recursive verifier fit every proof

- Status: partial
- Model: Same model as C116.
- Proof: refuted: the rotations of selector columns are looked up at witness + public input + public input columns; with one public input and two constant columns of different rotations every variable after the evaluations is shifted by one
- Theorems: `proof_layout_refuted`
- Note: The claim is false of the code: refuted. What does hold is C116.

### C118 The recursive verifier accepts the table generated for an honest proof

- Status: proved
- Model: VerifierModel.v: generate_assignments as the program of calls of generate_circuit, each filling its cells, with the assertion on the challenge and the one of x_index. The cells of a batched swap are written when it is added; the constants are in the table before.
- Wrong programs the theorems are meant to exclude: a call whose cells overlap those of a later one; a step filled from the wrong variables; colinear_checks filled with the point of another round
- Theorems: `verifier_complete`

### C119 colinear_checks accepts the table generated for values that fold

- Status: proved
- Model: FlexModel.v: generate_assignments of colinear_checks with the overlapping blocks written in order.
- Wrong programs the theorems are meant to exclude: the padding blocks filled with values that do not satisfy the gate; the square taken twice; a block overwriting part of its predecessor
- Theorems: `colinear_complete`

### C120 The SHA-512 component accepts its table and outputs the compression of the packed inputs

- Status: proved
- Model: Sha512HashModel.v: the gates, copy constraints, constants, words, chunks and cells of sha512.hpp, with the two compressions of Sha512Model.v. Field elements are converted to integers by fval.
- Wrong programs the theorems are meant to exclude: a chunk of the wrong width; a word packed with the wrong shift; the second compression started from the initial state; a copy to the wrong row
- Theorems: `sha512_hash_complete`

### C121 The SHA-512 component fixes its output, for any columns and with the padding of the standard

- Status: partial
- Model: Sha512HashModel.v, as for C120. The padding of the standard is a list of bits, the first bit of a word the most significant.
- Proof: refuted by a concrete case. What would repair the code: range checks of the chunks; the padding bit as a constant; the inputs of the compressions taken from the columns of the component
- Theorems: `sha512_hash_sound_refuted`, `sha512_hash_words_refuted`, `sha512_hash_columns_refuted`, `sha512_hash_padding_refuted`
- Note: The claim is false of the code: refuted. What does hold is C120.

### C122 to_limbs outputs the limbs of the canonical representative and from_limbs puts two limbs together

- Status: proved
- Model: LimbsModel.v: the gates, copy constraints, range checks, cells and carries of both components.
- Wrong programs the theorems are meant to exclude: a limb without its range check; the constant 2^256 - p replaced by another; a carry that may be any element; a carry added to the wrong limb; the limbs in another order
- Theorems: `to_limbs_sound`, `to_limbs_complete`, `from_limbs_sound`, `from_limbs_complete`, `limbs_challenge`

### C123 The output of from_limbs fixes its two limbs

- Status: partial
- Model: LimbsModel.v, as for C122.
- Proof: refuted by a concrete case. What would repair the code: range checks of the two inputs to 64 bits
- Theorems: `from_limbs_unique_refuted`
- Note: The claim is false of the code: refuted. What does hold is C122.

### C124 The mocked integer operations assign the exact result when nothing overflows

- Status: proved
- Model: MockModel.v: the nine operations, the five macros that use them with two signed and unsigned widths, both absolute values, assigner and result_builder. Integers of a fixed number of bits wrap; a thrown exception is None. The signed comparisons are not modelled.
- Wrong programs the theorems are meant to exclude: a quotient rounded down; halves exchanged; a sign of zero for a negative result; the magnitude of a wrong operand; a mask of the wrong width
- Theorems: `mock_unsigned_small`, `mock_unsigned_big`, `mock_unsigned_compare`, `mock_signed_small`, `mock_signed_big_nonneg`, `mock_abs`, `mock_division_by_zero`

### C125 A mocked component fixes its result, on any columns and for all signs

- Status: partial
- Model: MockModel.v, as for C124.
- Proof: refuted by a concrete case. What would repair the code: gates for the operation; result variables on the columns W(i); the sign as a factor of both halves
- Theorems: `mock_result_refuted`, `mock_columns_refuted`, `mock_signed_big_refuted`
- Note: The claim is false of the code: refuted. What does hold is C124.

### C126 The loader of lookup tables returns the numbers of the text, by columns

- Status: proved
- Model: LoaderModel.v: value_vector_parser and parse_lookup_table on lists of character codes. A stream is a list of lines and the number of rows is given.
- Wrong programs the theorems are meant to exclude: digits of one case only; rows and columns exchanged; leading white space not skipped; the digits read backwards
- Theorems: `loader_line`, `loader_short`, `loader_table`, `loader_missing`

### C127 The loader of lookup tables reads every field element

- Status: partial
- Model: LoaderModel.v, as for C126: the maximum is one digit for sixteen bits, so a longer number is read as two.
- Proof: refuted by a concrete case. What would repair the code: a maximum of one digit for four bits
- Theorems: `loader_long_refuted`
- Note: The claim is false of the code: refuted. What does hold is C126.

### C128 The generated reverse tables are the tables that SHA-256 looks up, for any number of threads

- Status: proved
- Model: ShaTableModel.v: the iterations and the words each thread visits. A run is any permutation of the visits, since the insertions of a word are made under one lock; the set is read through membership.
- Wrong programs the theorems are meant to exclude: a wrong multiplier; a chunk not inserted; the two halves of a pair exchanged; a worker that stops one word early
- Theorems: `shatab_threads`, `shatab_base4`, `shatab_base7`, `shatab_lookup4`, `shatab_lookup7`, `shatab_word4`, `shatab_word7`

### C129 The threads of the table generators visit every word

- Status: partial
- Model: ShaTableModel.v, as for C128: six threads are accepted and the last four words are left out. By C128 the tables are nevertheless complete.
- Proof: refuted by a concrete case. What would repair the code: the remainder given to the last thread
- Theorems: `shatab_words_refuted`, `shatab_small_refuted`
- Note: The claim is false of the code: refuted. What does hold is C128.
