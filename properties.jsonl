{"id": "C01", "title": "Setting a dotted key stores the value and touches nothing else", "statement": "After a successful set of a dotted key on a nested attribute dictionary, reading that dotted key gives back exactly the stored value, and every leaf whose dotted key is not on the same path keeps its value. If the set is refused, the dictionary is unchanged.", "quantifier": "every nested dictionary, every dotted key of any depth, every value that is not itself a dictionary", "why_tests_cant": "the set of nested dictionaries and key depths is unbounded; existing tests exercise depth one and two only, while the failure handling differs from depth three on", "anchors": ["src/calliope/attrdict.py:AttrDict.set_key", "src/calliope/attrdict.py:AttrDict.get_key"]}
{"id": "C02", "title": "Flatten / rebuild round trip", "statement": "Flattening a nested attribute dictionary to dotted keys and building a new attribute dictionary from the flat form gives back a dictionary with the same content; the flat form has one entry per leaf and no duplicates.", "quantifier": "every nested dictionary whose keys contain no dots and that has no empty sub-dictionaries nested in it (empty ones are also covered, as leaves)", "why_tests_cant": "a round trip over an unbounded recursive data type", "anchors": ["src/calliope/attrdict.py:AttrDict.as_dict_flat", "src/calliope/attrdict.py:AttrDict.keys_nested", "src/calliope/attrdict.py:AttrDict.init_from_dict"]}
{"id": "C03", "title": "Union with overriding: the other side wins leaf by leaf, nothing else changes", "statement": "Merging dictionary B into A with overriding allowed yields a dictionary in which every leaf of B has B's value and every leaf of A that does not lie on the path of a leaf of B keeps its value.", "quantifier": "every pair of nested dictionaries whose leaves do not clash structurally (a leaf of one is not an inner node of the other)", "why_tests_cant": "quantifies over all pairs of recursive structures; tests use a handful of literals", "anchors": ["src/calliope/attrdict.py:AttrDict.union"]}
{"id": "C04", "title": "Union without overriding refuses every conflict", "statement": "Merging B into A without allowing overrides fails if and only if some key of B is already defined in A; no definition of A is ever silently replaced.", "quantifier": "every pair of nested dictionaries", "why_tests_cant": "the structural clash 'A has a sub-dictionary where B has a plain value' is only one of infinitely many shapes and is not in the tests", "anchors": ["src/calliope/attrdict.py:AttrDict.union"]}
{"id": "C05", "title": "Layering overrides: the last layer defining a leaf wins", "statement": "Applying a sequence of override dictionaries one after the other gives, for every leaf, the value of the last layer that defines it; applying the same layer twice is the same as applying it once.", "quantifier": "every finite sequence of structurally compatible override layers over every base dictionary", "why_tests_cant": "arbitrary numbers of layers of arbitrary shape", "anchors": ["src/calliope/attrdict.py:AttrDict.union", "src/calliope/preprocess/model_definition.py:_load_scenario_overrides"]}
{"id": "C06", "title": "Deleting a dotted key removes exactly that subtree", "statement": "After deleting a dotted key, the key is absent, parents that became empty are gone, and every other leaf is unchanged; deleting a missing key raises an error.", "quantifier": "every nested dictionary and every dotted key", "why_tests_cant": "unbounded nesting; pruning of emptied parents cascades over arbitrarily many levels", "anchors": ["src/calliope/attrdict.py:AttrDict.del_key"]}
{"id": "C07", "title": "Model definition priority order", "statement": "For every setting, the value used by a model is the one from the highest-priority source defining it: keyword overrides at initialisation, then the override dictionary, then the scenario's overrides, then the model definition file, then an inherited template.", "quantifier": "every combination of sources and every leaf setting", "why_tests_cant": "the number of combinations of which source defines which leaf is unbounded", "anchors": ["src/calliope/preprocess/model_definition.py:prepare_model_definition", "src/calliope/preprocess/model_definition.py:_load_scenario_overrides"]}
{"id": "C08", "title": "Combination of overrides does not depend on the order in which they are visited", "statement": "Whether a set of overrides selected by a scenario combines, and the resulting settings, do not depend on the (hash-based, run-dependent) order in which the set is iterated.", "quantifier": "every set of overrides and every iteration order of that set", "why_tests_cant": "set iteration order varies between interpreter runs (hash randomisation), so a test run sees one order only", "anchors": ["src/calliope/preprocess/model_definition.py:_combine_overrides", "src/calliope/preprocess/model_definition.py:_load_overrides_from_scenario"]}
{"id": "C09", "title": "A scenario resolves to exactly the overrides reachable from it", "statement": "Resolving a scenario name through arbitrarily nested scenarios ends, yields exactly the override names reachable through scenario lists, and raises a model error when a name is neither an override nor a scenario.", "quantifier": "every scenario table (including self-referential ones) and every requested scenario string", "why_tests_cant": "nesting depth is unbounded and non-termination cannot be observed by a test", "anchors": ["src/calliope/preprocess/model_definition.py:_load_overrides_from_scenario"]}
{"id": "C10", "title": "Template inheritance picks the nearest definition and always ends", "statement": "Resolving templates terminates on every input: circular or undefined templates are reported as a model error, otherwise each setting of a block has the value of the nearest block in its template chain that defines it, local settings beating inherited ones.", "quantifier": "every set of template definitions and every block using them, chains of any length", "why_tests_cant": "chains of unbounded length and cycles of any period", "anchors": ["src/calliope/preprocess/model_definition.py:TemplateSolver"]}
{"id": "C11", "title": "YAML imports: the importing file takes precedence and conflicts are reported", "statement": "Reading a model file with imports gives the union of all imported files and the file itself, with the importing file's settings winning when overriding is allowed and a key error when it is not and both define the same key; the import statement itself never survives.", "quantifier": "every finite, acyclic import structure and any file contents", "why_tests_cant": "unbounded import lists and nesting", "anchors": ["src/calliope/io.py:_resolve_yaml_imports", "src/calliope/io.py:read_rich_yaml"]}
{"id": "C12", "title": "Math files are layered in order with the last definition winning", "statement": "The math used to build a model is the base math, overlaid by the run-mode math and then by the user's extra math files in the order given: each setting of each component has the value from the last file that defines it, and a missing file name is an error.", "quantifier": "every list of math files, every component, every setting", "why_tests_cant": "arbitrarily many math files with arbitrary contents", "anchors": ["src/calliope/preprocess/model_math.py:build_math", "src/calliope/preprocess/model_math.py:get_math_priority", "src/calliope/preprocess/model_math.py:initialise_math"]}
{"id": "C13", "title": "No two active math components share a name", "statement": "A math definition is accepted exactly when no name is switched on in two different component groups; in an accepted definition looking a name up returns the one group that holds it, or reports that there is none, and never reports an ambiguity.", "quantifier": "every math definition", "why_tests_cant": "all pairs of groups and names, any sizes", "anchors": ["src/calliope/schemas/math_schema.py:CalliopeBuildMath.unique_component_names", "src/calliope/schemas/math_schema.py:CalliopeBuildMath.find"]}
{"id": "C14", "title": "Configuration updates are local and immutable", "statement": "Updating a configuration object with dotted keys yields a new object in which exactly the addressed settings differ, leaves the original untouched, and applying updates one by one or all at once is the same.", "quantifier": "every configuration tree and every set of updates", "why_tests_cant": "unbounded trees and updates", "anchors": ["src/calliope/schemas/general.py:CalliopeBaseModel.update", "src/calliope/schemas/general.py:CalliopeDictModel.update", "src/calliope/schemas/general.py:CalliopeListModel.update"]}
{"id": "C15", "title": "Attribute metadata survives saving and loading", "statement": "Writing an attribute dictionary of strings, numbers, booleans, None, dictionaries, lists of strings and sets of strings to netCDF and reading it back yields an equal dictionary.", "quantifier": "every attribute dictionary of supported types", "why_tests_cant": "round trip over unboundedly many attribute combinations, including one-element lists/sets, which the file format collapses, and empty ones", "anchors": ["src/calliope/io.py:_serialise", "src/calliope/io.py:_deserialise"]}
{"id": "C16", "title": "Saving a model leaves the in-memory model unchanged", "statement": "After a save attempt, successful or not, the attributes of the in-memory model are what they were before.", "quantifier": "every model state and every point at which the save can fail", "why_tests_cant": "every crash point of the save must be covered", "anchors": ["src/calliope/io.py:save_netcdf"]}
{"id": "C17", "title": "Operate mode covers every timestep exactly once", "statement": "Solving in receding-horizon mode returns a result with one value per timestep in the original order; each timestep's value comes from the optimisation window that starts at or before it and whose decision window contains it.", "quantifier": "every series of timesteps, every window length and horizon length", "why_tests_cant": "unbounded combination of series lengths, windows and horizons, including those that do not divide evenly and a single-window run", "anchors": ["src/calliope/model.py:Model._solve_operate", "src/calliope/model.py:Model._prepare_operate_mode_inputs"]}
{"id": "C18", "title": "Operate mode carries storage levels over between windows", "statement": "The initial storage level of each window equals the storage level at the end of the preceding window's decision period, so the stitched storage trajectory obeys the same storage balance as a single run.", "quantifier": "every number of windows and every sequence of flows", "why_tests_cant": "a statement over whole histories of windows", "anchors": ["src/calliope/model.py:Model._recalculate_storage_initial", "src/calliope/model.py:Model._solve_operate"]}
{"id": "C19", "title": "SPORES iterations: complete, ordered and cost-bounded", "statement": "A SPORES run yields results for the baseline and each requested spore exactly once, in order; an infeasible spore ends the loop; interrupted runs resumed from saved results continue with the next spore number without recomputing or overwriting earlier ones.", "quantifier": "every number of spores, every sequence of solver outcomes, every resume point", "why_tests_cant": "histories of solves and resumes are unbounded", "anchors": ["src/calliope/model.py:Model._solve_spores", "src/calliope/model.py:Model._spores_update_model", "src/calliope/model.py:Model._spores_save_model"]}
{"id": "C20", "title": "Model lifecycle guards", "statement": "A model can only be solved after being built, is never silently rebuilt or re-solved without force, and is reported as solved exactly when results of a solve are available.", "quantifier": "every sequence of build, solve, save and load calls", "why_tests_cant": "all interleavings of calls", "anchors": ["src/calliope/model.py:Model.build", "src/calliope/model.py:Model.solve", "src/calliope/model.py:Model.is_solved"]}
{"id": "C21", "title": "Zero threshold only removes negligible values", "statement": "Applying the zero threshold replaces exactly those result values whose magnitude is below the threshold by zero and changes nothing else; it is applied whenever the solve ended with a usable solution.", "quantifier": "every result array, every threshold, every termination condition", "why_tests_cant": "all values and all termination strings", "anchors": ["src/calliope/model.py:Model._apply_zero_threshold", "src/calliope/model.py:Model.solve"]}
{"id": "C22", "title": "Resampling preserves totals", "statement": "Resampling a time series to a coarser resolution preserves the total of summed quantities and the total number of represented hours, and a mean-resampled series keeps its values within the original range.", "quantifier": "every series and every coarser resolution", "why_tests_cant": "all series lengths, including those not divisible by the new step", "anchors": ["src/calliope/preprocess/time.py:resample", "src/calliope/preprocess/time.py:add_inferred_time_params"]}
{"id": "C23", "title": "Clustering weights account for every day exactly once", "statement": "After clustering, the weights of the representative days sum to the number of original days, every original date is assigned to one representative day that is in the clustered data, and the last timestep looked up for a cluster lies in that cluster.", "quantifier": "every assignment of dates to representative days", "why_tests_cant": "all assignments of any number of days", "anchors": ["src/calliope/preprocess/time.py:cluster", "src/calliope/preprocess/time.py:_lookup_clusters"]}
{"id": "C24", "title": "Links appear at exactly their two end nodes with the right direction", "statement": "Every active transmission technology is expanded into exactly two node entries, at its two end nodes; a two-way link can import and export at both ends, a one-way link only exports at the start and only imports at the end.", "quantifier": "every set of link definitions", "why_tests_cant": "all link graphs", "anchors": ["src/calliope/preprocess/model_data.py:ModelDataBuilder._links_to_node_format", "src/calliope/preprocess/model_data.py:ModelDataBuilder._update_one_way_links"]}
{"id": "C25", "title": "Technology data at a node is inherited by priority and inactive items vanish", "statement": "The definition of a technology at a node takes each setting from the node's own definition, else from the technology's general definition, else from data tables; inactive technologies or nodes contribute nothing; a reference to an undefined technology is an error.", "quantifier": "every collection of node, technology and table definitions", "why_tests_cant": "all combinations of who defines what", "anchors": ["src/calliope/preprocess/model_data.py:ModelDataBuilder._inherit_defs", "src/calliope/preprocess/model_data.py:ModelDataBuilder._deactivate_item"]}
{"id": "C26", "title": "Cleaning removes only undefined members", "statement": "Cleaning the input data drops a node, technology or carrier if and only if it takes part in no defined node/technology/carrier combination, and never changes data of a retained combination.", "quantifier": "every definition of inflow and outflow carriers", "why_tests_cant": "all sparse 3-D patterns", "anchors": ["src/calliope/preprocess/model_data.py:ModelDataCleaner.clean_data_from_undefined_members", "src/calliope/preprocess/model_data.py:ModelDataCleaner._drop_undefined"]}
{"id": "C27", "title": "Later data wins entry by entry when datasets are combined", "statement": "When a new data array is added to the model's inputs, each entry it defines wins over the existing one and each entry it leaves undefined keeps the earlier value.", "quantifier": "every sequence of added arrays with arbitrary missing entries", "why_tests_cant": "all histories and missing-data patterns", "anchors": ["src/calliope/preprocess/model_data.py:ModelDataBuilder._add_to_dataset"]}
{"id": "C28", "title": "Generated scenarios enumerate all combinations once, in sortable order", "statement": "Generating scenarios from groups of overrides produces one scenario for every way of picking one override per group, with pairwise distinct names whose text order is the numeric order.", "quantifier": "every list of override groups", "why_tests_cant": "unbounded numbers of groups and members; zero padding changes at each power of ten", "anchors": ["src/calliope/cli.py:generate_scenarios"]}
{"id": "C29", "title": "Generated run scripts execute run i as the i-th command", "statement": "The generated shell script called with i executes precisely the i-th run command, called without arguments executes all of them once in order, and no two commands write to the same output file.", "quantifier": "every list of scenarios and every argument", "why_tests_cant": "unbounded number of runs", "anchors": ["src/calliope/util/generate_runs.py:generate_runs", "src/calliope/util/generate_runs.py:generate_bash_script"]}
{"id": "C30", "title": "Cluster time limits are preserved", "statement": "A time limit given in minutes is written to the SLURM script as hours:minutes:seconds of the same duration.", "quantifier": "every number of minutes", "why_tests_cant": "all durations; tests use small ones only", "anchors": ["src/calliope/util/generate_runs.py:generate_sbatch_script"]}
{"id": "C31", "title": "Command line options reach the solve step", "statement": "Options given to the run command for saving solver logs or per-spore results take effect in the solve configuration.", "quantifier": "every option value and configuration", "why_tests_cant": "the full chain from command-line keyword to configuration setting for every value", "anchors": ["src/calliope/cli.py:run", "src/calliope/model.py:Model.solve", "src/calliope/schemas/general.py:CalliopeBaseModel.update"]}
{"id": "C32", "title": "Conditions are parsed according to the documented grammar, without ambiguity", "statement": "Every condition written with 'and', 'or', 'not', parentheses and comparisons parses to one expression: 'not' binds tightest and 'and'/'or' associate to the left; writing an expression out and parsing it again gives the same expression.", "quantifier": "every condition expression of any depth", "why_tests_cant": "infinitely many expressions", "anchors": ["src/calliope/backend/where_parser.py:where_parser", "src/calliope/backend/where_parser.py:generate_where_string_parser"]}
{"id": "C33", "title": "Arithmetic in math strings follows the stated precedence", "statement": "Every arithmetic expression parses to one tree with signs binding tightest, then power, then multiplication/division, then addition/subtraction, each associating to the left; writing a tree out with parentheses and parsing it gives the same tree, and evaluation is the value of the tree.", "quantifier": "every arithmetic expression of any depth", "why_tests_cant": "infinitely many expressions", "anchors": ["src/calliope/backend/expression_parser.py:arithmetic_parser", "src/calliope/backend/expression_parser.py:EvalOperatorOperand", "src/calliope/backend/expression_parser.py:EvalSignOp"]}
{"id": "C34", "title": "Arithmetic has the usual mathematical meaning", "statement": "The value of an arithmetic math string is the value the same text has under the usual mathematical conventions for precedence and associativity.", "quantifier": "every arithmetic expression", "why_tests_cant": "infinitely many expressions; only specific operator neighbourhoods differ", "anchors": ["src/calliope/backend/expression_parser.py:arithmetic_parser"]}
{"id": "C35", "title": "A condition selects exactly the entries where it is true", "statement": "Evaluating a condition over input data gives, for each index combination, the Boolean value of the condition there: an input 'exists' where it is neither missing nor infinite, comparisons use defaults for missing data, and Boolean laws (double negation, De Morgan, commutativity) hold.", "quantifier": "every condition, data set and index combination", "why_tests_cant": "all conditions and all data", "anchors": ["src/calliope/backend/where_parser.py:EvalNot", "src/calliope/backend/where_parser.py:EvalAndOr", "src/calliope/backend/where_parser.py:InputArrayParser", "src/calliope/backend/where_parser.py:ComparisonParser"]}
{"id": "C36", "title": "Sub-expression alternatives are expanded completely and without duplicates", "statement": "A math component with alternatives for its sub-expressions and slices is expanded into exactly one equation for each combination of alternatives of the items it refers to; if alternatives of every item are mutually exclusive at an index then at most one expanded equation applies there, and if they are also exhaustive, exactly one.", "quantifier": "every set of equations, sub-expressions, slices and conditions", "why_tests_cant": "all numbers of alternatives and nestings", "anchors": ["src/calliope/backend/parsing.py:ParsedBackendComponent.parse_equations", "src/calliope/backend/parsing.py:ParsedBackendComponent.extend_equation_list_with_expression_group"]}
{"id": "C37", "title": "Every sub-expression reference is found wherever it occurs", "statement": "Each reference to a sub-expression or slice in an equation is replaced by its alternatives, no matter where in the expression it occurs.", "quantifier": "every equation expression", "why_tests_cant": "all positions in expression trees of any depth", "anchors": ["src/calliope/backend/parsing.py:ParsedBackendEquation._find_items_in_expression"]}
{"id": "C38", "title": "Each entry of a component gets exactly one equation", "statement": "Building a component assigns each index combination the expression of the single equation whose condition holds there, leaves the entry empty when none does, fails with a backend error when two do, and does not depend on the order of the equations.", "quantifier": "every list of equations and every index", "why_tests_cant": "all condition patterns and orderings", "anchors": ["src/calliope/backend/backend_model.py:BackendModelGenerator._eval_equations"]}
{"id": "C39", "title": "Splitting a condition between component and equation level is immaterial", "statement": "A condition written at the component level and one written at the equation level are combined by 'and': moving a conjunct from one to the other does not change which entries are built.", "quantifier": "every pair of conditions over any dimensions", "why_tests_cant": "only conditions over dimensions that the component does not iterate over behave differently", "anchors": ["src/calliope/backend/parsing.py:ParsedBackendEquation.evaluate_where", "src/calliope/backend/parsing.py:ParsedBackendEquation.drop_dims_not_in_foreach"]}
{"id": "C40", "title": "Rolling a dimension is a cyclic shift", "statement": "Rolling an array by k along a dimension moves each value k places cyclically: rolling by k then -k is the identity, rolls add up, rolling by the length is the identity, and totals along the dimension are unchanged.", "quantifier": "every array, dimension length and shift (positive, negative, larger than the length)", "why_tests_cant": "all lengths and shifts", "anchors": ["src/calliope/backend/helper_functions.py:Roll"]}
{"id": "C41", "title": "Sums ignore missing entries, and grouping preserves totals", "statement": "Summing over dimensions ignores missing values, gives a missing value exactly when all summands are missing, does not depend on the order of dimensions, and summing by groups then over the groups gives the overall sum.", "quantifier": "every array, any list of dimensions and any grouping", "why_tests_cant": "all arrays and missing patterns", "anchors": ["src/calliope/backend/helper_functions.py:Sum", "src/calliope/backend/helper_functions.py:GroupSum"]}
{"id": "C42", "title": "Rolling window sums have exactly N terms", "statement": "Summing the next N items along an ordered dimension gives at each position the sum of that position and the N-1 following ones, wrapping never, and the documentation rendering denotes the same set of terms.", "quantifier": "every array, position and N", "why_tests_cant": "all positions and window lengths, in particular at the end of the series", "anchors": ["src/calliope/backend/helper_functions.py:SumNextN"]}
{"id": "C43", "title": "Rebuilding after an input update keeps definitions consistent", "statement": "After any sequence of input updates each built math component still exists exactly once, is stored after all components it refers to, and has the same references as in a fresh build.", "quantifier": "every acyclic reference structure and every sequence of updates", "why_tests_cant": "histories of updates of unbounded length on arbitrary reference graphs", "anchors": ["src/calliope/backend/backend_model.py:BackendModel._update_input", "src/calliope/backend/backend_model.py:BackendModel._rebuild_references", "src/calliope/backend/backend_model.py:BackendModel._find_all_references"]}
{"id": "C44", "title": "Updating an input is equivalent to building with the new value", "statement": "After updating an input to a new value the optimisation problem equals the one that a fresh build with the new value would give.", "quantifier": "every math definition, input and new value", "why_tests_cant": "all conditions that may depend on the updated value", "anchors": ["src/calliope/backend/backend_model.py:BackendModel._update_input", "src/calliope/backend/pyomo_backend_model.py:PyomoBackendModel.update_input"]}
{"id": "C45", "title": "Exactly one objective is active", "statement": "At any time after building, exactly one objective is active in the solver instance and it is the one reported as the current objective, whatever sequence of set-objective calls was made, including failing ones.", "quantifier": "every sequence of objective switches", "why_tests_cant": "all histories including erroneous calls", "anchors": ["src/calliope/backend/pyomo_backend_model.py:PyomoBackendModel.set_objective", "src/calliope/backend/pyomo_backend_model.py:PyomoBackendModel._add_objective"]}
{"id": "C46", "title": "Bound updates and fixing are exact and atomic", "statement": "Updating variable bounds sets the new bounds at exactly the entries given and leaves the rest; a refused update changes nothing; unfixing a fixed variable restores it to its state before fixing.", "quantifier": "every variable, bound update and entry pattern", "why_tests_cant": "all sequences and patterns, including updates in which only one of two bounds may be changed", "anchors": ["src/calliope/backend/pyomo_backend_model.py:PyomoBackendModel.update_variable_bounds", "src/calliope/backend/pyomo_backend_model.py:PyomoBackendModel.fix_variable"]}
{"id": "C47", "title": "Input checks fire exactly when violated for a defined item", "statement": "A configured input check reports if and only if its condition holds for at least one defined node/technology/carrier combination, raise-level violations stop the build and warn-level ones do not.", "quantifier": "every list of checks and any input data", "why_tests_cant": "all data patterns", "anchors": ["src/calliope/backend/backend_model.py:BackendModelGenerator._check_inputs", "src/calliope/exceptions.py:print_warnings_and_raise_errors"]}
{"id": "C48", "title": "Math documentation denotes the math that is built", "statement": "The rendered formula of an arithmetic expression, read by the usual mathematical conventions, denotes the value that the backend computes for that expression.", "quantifier": "every expression", "why_tests_cant": "all expression trees of any depth", "anchors": ["src/calliope/backend/expression_parser.py:EvalOperatorOperand.as_math_string", "src/calliope/backend/expression_parser.py:EvalSignOp.as_math_string", "src/calliope/backend/where_parser.py:EvalAndOr.as_math_string"]}
{"id": "C49", "title": "Errors and warnings are reported completely and once", "statement": "Collected errors raise one model error whose message lists every distinct error exactly once in sorted order; no errors means no exception; warnings never stop processing.", "quantifier": "every list of warnings and errors", "why_tests_cant": "all lists with duplicates in any order", "anchors": ["src/calliope/exceptions.py:print_warnings_and_raise_errors"]}
{"id": "C50", "title": "Exactly one storage equation applies in every timestep", "statement": "In the built-in storage balance, for every timestep and every combination of cyclic-storage and cluster flags exactly one definition of 'stored in the previous step' applies.", "quantifier": "every combination of condition values, every timestep", "why_tests_cant": "the claim is about the Boolean semantics of the shipped condition texts under the parser's precedence rules", "anchors": ["src/calliope/math/base.yaml:balance_storage.sub_expressions.storage_previous_step"]}
{"id": "C51", "title": "Storage balance conserves energy over the whole period", "statement": "Every feasible storage trajectory of the built-in math satisfies: level at the end of any timestep equals the decayed initial level plus decayed net charge of all earlier timesteps; for lossless cyclic storage total charge equals total discharge; the level stays within its capacity.", "quantifier": "every number of timesteps, every flow series, every loss rate", "why_tests_cant": "induction over the number of timesteps", "anchors": ["src/calliope/math/base.yaml:balance_storage", "src/calliope/math/base.yaml:storage_max", "src/calliope/math/base.yaml:set_storage_initial"]}
{"id": "C52", "title": "Carrier balance over the system", "statement": "In every feasible solution of the built-in math with lossless links, total generation of a carrier plus unmet demand equals total consumption plus export plus unused supply when summed over all nodes.", "quantifier": "every network, timestep and solution", "why_tests_cant": "all networks of any size", "anchors": ["src/calliope/math/base.yaml:system_balance", "src/calliope/math/base.yaml:balance_transmission"]}
{"id": "C53", "title": "Minimum and maximum unit numbers are enforced whenever given", "statement": "If a system-wide minimum number of purchased units is given for a technology, every feasible solution purchases at least that many, independent of whether a maximum is given.", "quantifier": "every parameter combination", "why_tests_cant": "all combinations of given/missing parameters under the shipped condition texts", "anchors": ["src/calliope/math/milp.yaml:unit_capacity_min_systemwide_milp"]}
{"id": "C54", "title": "Postprocessed totals use timestep weights consistently", "statement": "Total generation weighs each timestep's outflow and export by the timestep weight, so that it equals capacity factor times capacity times represented hours.", "quantifier": "every result and every weight vector", "why_tests_cant": "weights differ from one only for clustered data", "anchors": ["src/calliope/math/base.yaml:total_generation", "src/calliope/math/base.yaml:systemwide_capacity_factor"]}
{"id": "C55", "title": "Exactly one depreciation rule applies", "statement": "For every technology with investment costs exactly one annualisation rule applies, and it recovers the invested amount: with zero interest the annual payments over the lifetime add up to the investment, with positive interest their present value does.", "quantifier": "every lifetime and interest rate", "why_tests_cant": "geometric sums of unbounded length", "anchors": ["src/calliope/math/base.yaml:cost_investment_annualised"]}
{"id": "C56", "title": "Initial storage has the same meaning in all storage formulations", "statement": "The initial storage parameter is a fraction of storage capacity: in every shipped formulation the first timestep of a non-cyclic storage starts from that fraction times the storage capacity.", "quantifier": "every capacity and initial fraction", "why_tests_cant": "semantic comparison of two shipped formulations for all parameter values", "anchors": ["src/calliope/math/base.yaml:balance_storage", "src/calliope/math/storage_inter_cluster.yaml:balance_storage_inter"]}
{"id": "C57", "title": "Replacing a block with _REPLACE_", "statement": "Merging a block marked with _REPLACE_ makes the addressed block equal to exactly the replacement and leaves every leaf outside it unchanged; addressing a block that does not exist is an error and changes nothing.", "quantifier": "every nested dictionary, every address, every replacement content", "why_tests_cant": "arbitrary nesting and arbitrary old and new content", "anchors": ["src/calliope/attrdict.py:AttrDict.union"]}
{"id": "C59", "title": "A name in a math string has one role", "statement": "In an accepted math definition every name that may appear in an expression or where string is exactly one of dimension, input or result, namely that of the group in which it is switched on.", "quantifier": "every accepted math definition and every name", "why_tests_cant": "all combinations of groups, names and active flags", "anchors": ["src/calliope/schemas/math_schema.py:CalliopeBuildMath.parsing_components"]}
{"id": "C60", "title": "Each window of a receding-horizon run uses its own data", "statement": "When a model is solved with a receding horizon, the values decided for a window come from an optimisation that was given exactly the time series of the time stamps this window looks at, for every time-varying input.", "quantifier": "every time series, window and horizon length, set of time-varying inputs and optimiser", "why_tests_cant": "the inputs are updated in place between windows; all combinations of shortened last windows and inputs are possible", "anchors": ["src/calliope/model.py:Model._solve_operate", "src/calliope/model.py:Model._prepare_operate_mode_inputs", "src/calliope/backend/backend_model.py:BackendModel._update_input"]}
{"id": "C61", "title": "SPORES integer scores count earlier deployments", "statement": "With integer scoring, the score by which a technology at a node is penalised in a spore is 1000 times the number of earlier results (baseline included) in which its capacity was of relevant size, i.e. above the configured fraction of the largest tracked capacity of the same carrier; untracked technologies are never penalised.", "quantifier": "every number of spores, set of technologies, tracking parameter, threshold factor and sequence of solver outcomes", "why_tests_cant": "scores accumulate over unboundedly many solver calls", "anchors": ["src/calliope/model.py:Model._spores_update_model", "src/calliope/model.py:Model._solve_spores", "src/calliope/math/spores.yaml"]}
{"id": "C62", "title": "Selecting a subset of nodes removes exactly the links that lose an end", "statement": "When the model is restricted to a subset of nodes, a transmission link is kept if and only if both its end nodes are selected, and every other technology is kept if and only if it is defined at a selected node.", "quantifier": "every dataset of inputs, every network and every list of selected nodes", "why_tests_cant": "Unit tests select a few nodes of the example models; whether a link is dropped depends on the whole definition matrix, including which carriers each end uses.", "anchors": ["src/calliope/preprocess/model_data.py:866-909 (ModelDataCleaner._subset_dims)", "src/calliope/preprocess/model_data.py:812-845 (_drop_undefined)"]}
{"id": "C63", "title": "The run command does what its options say", "statement": "With an LP target the run command builds and writes the model and neither solves nor saves anything else; otherwise it solves exactly once and then saves results exactly to the targets given, whatever the outcome; it fails on request exactly when the solver returned no usable result; a pre-built model cannot be combined with a scenario or overrides.", "quantifier": "every combination of options and every termination condition", "why_tests_cant": "The tests run a handful of option combinations; the interplay of all of them with all outcomes is not enumerated.", "anchors": ["src/calliope/cli.py:178-212 (_run_setup_model)", "src/calliope/cli.py:234-315 (run)"]}
{"id": "C64", "title": "Adding zero changes nothing", "statement": "Writing x + 0 instead of x inside a sum in an equation does not change the value of the equation.", "quantifier": "every input data, condition, dimensions and expression", "why_tests_cant": "equations are evaluated array by array with a mask; only specific equations are tested", "anchors": ["src/calliope/backend/expression_parser.py:EvalOperatorOperand", "src/calliope/backend/helper_functions.py:Sum"]}
{"id": "C65", "title": "Lookup and definition helpers pick the entries they name", "statement": "select_from_lookup_arrays gives at each place the entry at the labels that the lookup inputs hold there, and a missing entry where they hold none; get_val_at_index gives the label at that place from the start or, if negative, from the end; any holds where the input is given for some member; defined holds where any, or all, of the named members are combined with the member.", "quantifier": "every input data, dimension length, list of members and index", "why_tests_cant": "all index values, missing patterns and combinations of dimensions", "anchors": ["src/calliope/backend/helper_functions.py:SelectFromLookupArrays", "src/calliope/backend/helper_functions.py:GetValAtIndex", "src/calliope/backend/helper_functions.py:WhereAny", "src/calliope/backend/helper_functions.py:Defined"]}
{"id": "C66", "title": "Sub-expressions mean what their text means", "statement": "An equation that refers to sub-expressions has the value it would have with their text written in place, in brackets, also inside helper functions.", "quantifier": "every equation, sub-expressions, data and condition", "why_tests_cant": "all nestings of helper functions and conditions", "anchors": ["src/calliope/backend/expression_parser.py:EvalSubExpressions"]}
{"id": "C67", "title": "Changes made through the backend survive input updates", "statement": "Bounds changed with update_variable_bounds and variables fixed with fix_variable stay so after later updates of inputs, at all entries that exist before and after.", "quantifier": "every sequence of changes and input updates", "why_tests_cant": "whether a variable is built again depends on the whole reference graph and on which entries are missing", "anchors": ["src/calliope/backend/backend_model.py:BackendModel._rebuild_references", "src/calliope/backend/pyomo_backend_model.py:PyomoBackendModel.fix_variable", "src/calliope/backend/pyomo_backend_model.py:PyomoBackendModel.update_variable_bounds"]}
{"id": "C68", "title": "Fixing under a condition fixes exactly the entries chosen", "statement": "fix_variable with a condition fixes the variables at the labels for which the condition holds and leaves all others free, also those whose labels the condition does not have.", "quantifier": "every variable, condition and set of labels", "why_tests_cant": "all shapes and label sets of the condition; the mask is matched by position", "anchors": ["src/calliope/backend/pyomo_backend_model.py:PyomoBackendModel.fix_variable", "src/calliope/backend/backend_model.py:BackendModel._apply_func", "src/calliope/backend/gurobi_backend_model.py:GurobiBackendModel.fix_variable"]}
{"id": "C69", "title": "The shipped math can always be built without conflicts", "statement": "In every supported combination of the pre-defined math files (base, operate or spores mode, MILP, inter-cluster storage) every condition and equation text is accepted, every reference is defined, and no entry of a component is ever given two equations.", "quantifier": "every input data set, every order in which references are listed", "why_tests_cant": "conditions range over all combinations of input data; unit tests build a few example models", "anchors": ["src/calliope/math/base.yaml", "src/calliope/math/milp.yaml", "src/calliope/math/storage_inter_cluster.yaml", "src/calliope/backend/backend_model.py:BackendModelGenerator._eval_equations", "src/calliope/backend/parsing.py:ParsedBackendComponent"]}
{"id": "C70", "title": "Demand is met", "statement": "In every solution a demand technology takes in, after its inflow efficiency, exactly the demand given for the timestep (absolute, per area used or per installed capacity); without a fixed demand it stays between the smallest and the largest demand given.", "quantifier": "every input data set, node, technology, carrier, timestep, combination of shipped math files and solution", "why_tests_cant": "all combinations of data and all solutions; tests compare generated LP files of single examples", "anchors": ["src/calliope/math/base.yaml:balance_demand", "src/calliope/math/base.yaml:balance_demand_min_use", "src/calliope/math/base.yaml:flow_in_inc_eff"]}
{"id": "C71", "title": "Flows stay within the installed capacity", "statement": "In every solution the outflow (inflow) of a technology in a timestep is at most its flow capacity times the length of the timestep (times the parasitic efficiency), also with integer units, and at least the minimum share given.", "quantifier": "every input data set, technology, carrier, timestep, combination of shipped math files and solution", "why_tests_cant": "needs all combinations of MILP options and all solutions; a missing limit shows up only in solutions", "anchors": ["src/calliope/math/base.yaml:flow_out_max", "src/calliope/math/base.yaml:flow_in_max", "src/calliope/math/base.yaml:flow_out_min", "src/calliope/math/milp.yaml:flow_out_max_milp", "src/calliope/math/milp.yaml:flow_in_max_milp", "src/calliope/math/milp.yaml:flow_out_min_milp", "src/calliope/math/milp.yaml:unit_commitment_milp", "src/calliope/math/milp.yaml:flow_capacity_units_milp"]}
{"id": "C72", "title": "Supply gives what its source provides", "statement": "In every solution the outflow of each carrier of a supply technology without storage is the source used times the source and outflow efficiencies, and the source used equals the fixed availability, or lies between the smallest and largest availability given (absolute, per area or per capacity), and within the source capacity.", "quantifier": "every input data set, supply technology, timestep, combination of shipped math files and solution", "why_tests_cant": "all units, limits and solutions", "anchors": ["src/calliope/math/base.yaml:balance_supply_no_storage", "src/calliope/math/base.yaml:source_availability_supply", "src/calliope/math/base.yaml:balance_supply_min_use", "src/calliope/math/base.yaml:source_max", "src/calliope/math/base.yaml:flow_out_inc_eff"]}
{"id": "C73", "title": "Costs add up", "statement": "In every solution the cost of a technology at a node is its yearly share of the investment and its fixed costs, for the years the timesteps stand for, plus its running costs of all timesteps; an investment is the sum of price times capacity of all parts (half of it at each end of a link), and the objective is the sum of all costs weighed by cost class plus the penalty for unmet demand.", "quantifier": "every input data set, technology, cost class, combination of shipped math files and solution", "why_tests_cant": "sums over any number of timesteps, carriers, nodes and cost classes; tests compare single generated files", "anchors": ["src/calliope/math/base.yaml:cost", "src/calliope/math/base.yaml:cost_operation_variable", "src/calliope/math/base.yaml:cost_investment", "src/calliope/math/base.yaml:cost_investment_flow_cap", "src/calliope/math/base.yaml:cost_operation_fixed", "src/calliope/math/base.yaml:cost_investment_annualised", "src/calliope/math/base.yaml:min_cost_optimisation", "src/calliope/math/milp.yaml:cost_investment_purchase"]}
{"id": "C74", "title": "Ramping limits hold from each timestep to the next", "statement": "In every solution, the rate of a technology with flow_ramping changes from one timestep to the next by no more than flow_ramping times the hours passed times its capacity, up or down; over several timesteps these limits add up.", "quantifier": "every solution of every combination of shipped math, every technology, node, carrier and pair of timesteps", "why_tests_cant": "limits relate neighbouring timesteps of arbitrary series; a test runs one model with one resolution", "anchors": ["src/calliope/math/base.yaml:ramping_up (841-856)", "src/calliope/math/base.yaml:ramping_down (858-873)", "src/calliope/math/base.yaml:flow_ramping (299-304)"]}
{"id": "C75", "title": "Conversion neither creates nor loses carriers beyond its efficiencies", "statement": "In every solution a conversion technology without storage puts out (before losses, over all its carriers) what it takes in (after losses); from one carrier to another the outflow is the inflow times the efficiencies.", "quantifier": "every input data set, conversion technology, set of carriers, timestep and solution", "why_tests_cant": "all numbers of carriers and all solutions", "anchors": ["src/calliope/math/base.yaml:balance_conversion", "src/calliope/math/base.yaml:flow_in_inc_eff", "src/calliope/math/base.yaml:flow_out_inc_eff"]}
{"id": "C76", "title": "Rules between capacities are kept", "statement": "In every solution system-wide capacity limits hold for the sum over all nodes, area use is tied to capacity and within the available area of each node, storage and flow capacity keep their ratio, source capacity equals flow capacity where asked for, both ends of a transmission link have the same capacity, and a technology that may have no flow capacity uses no area.", "quantifier": "every input data set, set of nodes and technologies and solution", "why_tests_cant": "sums over any number of nodes and technologies", "anchors": ["src/calliope/math/base.yaml:flow_capacity_systemwide_max", "src/calliope/math/base.yaml:flow_capacity_systemwide_min", "src/calliope/math/base.yaml:area_use_per_flow_capacity", "src/calliope/math/base.yaml:area_use_capacity_per_loc", "src/calliope/math/base.yaml:flow_capacity_per_storage_capacity_min", "src/calliope/math/base.yaml:flow_capacity_per_storage_capacity_max", "src/calliope/math/base.yaml:source_capacity_equals_flow_capacity", "src/calliope/math/base.yaml:symmetric_transmission"]}
{"id": "C77", "title": "Export and depth of discharge", "statement": "In every solution no more is exported than put out, and a storage never falls below the share of its capacity that must not be discharged.", "quantifier": "every input data set, technology, timestep and solution", "why_tests_cant": "all solutions", "anchors": ["src/calliope/math/base.yaml:export_balance", "src/calliope/math/base.yaml:storage_discharge_depth_limit"]}
{"id": "C78", "title": "Alternatives stay within the cost allowed", "statement": "With the SPORES math every solution costs (by the value of the least-cost objective) at most the baseline cost times one plus the slack, and what is minimised is the sum of capacities weighed with their scores plus the penalty for unmet demand.", "quantifier": "every input data set, score, slack and solution", "why_tests_cant": "all solutions; the least-cost objective and the limit are two separate texts that must agree", "anchors": ["src/calliope/math/spores.yaml:total_system_cost_max", "src/calliope/math/spores.yaml:min_spores", "src/calliope/math/base.yaml:min_cost_optimisation"]}
{"id": "C79", "title": "No simultaneous inflow and outflow where forbidden", "statement": "With force_async_flow a technology never has inflow and outflow in the same timestep.", "quantifier": "every input data set, technology, timestep and solution with a binary switch and flows that are not negative", "why_tests_cant": "all solutions; the sums run over any number of carriers", "anchors": ["src/calliope/math/milp.yaml:async_flow_in_milp", "src/calliope/math/milp.yaml:async_flow_out_milp"]}
{"id": "C80", "title": "Capacity follows the units bought", "statement": "With MILP math the flow and storage capacity is the number of units bought times the size of a unit; without units there is no capacity; minimum and maximum capacities scale with the units bought.", "quantifier": "every input data set, technology and solution", "why_tests_cant": "all solutions", "anchors": ["src/calliope/math/milp.yaml:flow_capacity_units_milp", "src/calliope/math/milp.yaml:storage_capacity_units_milp", "src/calliope/math/milp.yaml:flow_capacity_max_purchase_milp", "src/calliope/math/milp.yaml:storage_capacity_max_purchase_milp", "src/calliope/math/milp.yaml:flow_capacity_minimum"]}
{"id": "C81", "title": "Available capacity follows operation", "statement": "available_flow_cap is the flow capacity when the units bought are running and zero when none is.", "quantifier": "every input data set, technology, timestep and solution", "why_tests_cant": "all solutions; three constraints act together", "anchors": ["src/calliope/math/milp.yaml:available_flow_cap_continuous", "src/calliope/math/milp.yaml:available_flow_cap_binary", "src/calliope/math/milp.yaml:available_flow_cap_max_binary_continuous_switch"]}
{"id": "C82", "title": "Annual costs of a link are charged once", "statement": "The annual cost per capacity of a transmission link is charged once for the link, like its investment.", "quantifier": "every input data set and solution", "why_tests_cant": "needs the sum over both ends of a link", "anchors": ["src/calliope/math/base.yaml:cost_operation_fixed", "src/calliope/math/base.yaml:cost_investment_flow_cap"]}
{"id": "C83", "title": "Fractions stay between zero and one", "statement": "In every solution the capacity factor, the system-wide capacity factor and the curtailment lie between zero and one.", "quantifier": "every input data set, technology, timestep and solution", "why_tests_cant": "all solutions; constraints and results are separate texts", "anchors": ["src/calliope/math/base.yaml:capacity_factor", "src/calliope/math/base.yaml:systemwide_capacity_factor", "src/calliope/math/base.yaml:curtailment", "src/calliope/math/base.yaml:flow_out_max"]}
{"id": "C84", "title": "Levelised cost is cost per unit generated", "statement": "The levelised cost of a technology is the sum of its costs at all nodes divided by what it generates in the hours that the timesteps stand for.", "quantifier": "every input data set and solution", "why_tests_cant": "weights differ from one only for clustered or resampled data", "anchors": ["src/calliope/math/base.yaml:systemwide_levelised_cost", "src/calliope/math/base.yaml:total_generation"]}
{"id": "C85", "title": "A data table fills exactly the places its entries belong to", "statement": "After loading a data table an input has a value at a position exactly if some selected entry of the table belongs there: its row and column labels are the position on every dimension kept and the position is one of the items on every dimension added. The arrays have exactly these dimensions, two entries for one place are refused, and protected names are refused.", "quantifier": "every table, definition of rows, columns, select, drop, add_dims and rename_dims", "why_tests_cant": "combinations of selecting, dropping, adding and stacking over any number of levels; tests load a few tables", "anchors": ["src/calliope/preprocess/data_tables.py:_df_to_ds", "src/calliope/preprocess/data_tables.py:_check_processed_tdf", "src/calliope/preprocess/data_tables.py:_check_for_protected_params"]}
{"id": "C86", "title": "Loading a table leaves the frames of the caller alone", "statement": "Each table given as an in-memory frame is loaded as if it were the only one: loading one does not change what another one on the same frame gives.", "quantifier": "every list of tables and frames", "why_tests_cant": "needs the state of a frame shared by several tables; tests give every table its own frame", "anchors": ["src/calliope/preprocess/data_tables.py:_rename_axes", "src/calliope/model.py:init"]}
{"id": "C87", "title": "Technologies at nodes are taken from tables where they have data", "statement": "A technology is put at a node because of a data table exactly if some input over nodes and technologies has an entry there; links are refused; a technology that is switched off takes no part.", "quantifier": "every table and model definition", "why_tests_cant": "every combination of arrays, missing entries and technologies", "anchors": ["src/calliope/preprocess/data_tables.py:node_dict", "src/calliope/preprocess/model_data.py:init_from_data_tables"]}
{"id": "C88", "title": "Lookups and base technologies from tables", "statement": "A lookup array in a table gives a technology exactly the labels it is set for, and data of a later table override those of preceding ones.", "quantifier": "every list of tables", "why_tests_cant": "any number of tables, labels and other dimensions", "anchors": ["src/calliope/preprocess/data_tables.py:lookup_dict_from_param", "src/calliope/preprocess/data_tables.py:tech_dict", "src/calliope/preprocess/model_data.py:init_from_data_tables"]}
{"id": "C89", "title": "Inputs are exactly what the definition says", "statement": "After the definition of technologies and nodes is turned into arrays, an input has a value at a position exactly if the setting that applies there says so: the setting of the node for the technology, else that of the technology, else that of the data tables, or a setting of the node. Plain values hold everywhere, lookups at their labels, indexed settings at their index. The order of technologies and nodes has no influence and technologies that are switched off take no part.", "quantifier": "every definition of technologies, nodes, links and data tables", "why_tests_cant": "needs arbitrary combinations of own and inherited settings over nodes, technologies and further dimensions; tests build a few models", "anchors": ["src/calliope/preprocess/model_data.py:add_node_tech_data", "src/calliope/preprocess/model_data.py:_definition_dict_to_ds", "src/calliope/preprocess/model_data.py:_prepare_input_data_dict", "src/calliope/preprocess/model_data.py:_input_data_dict_to_array"]}
{"id": "C90", "title": "Data definitions at the top level override exactly at their index", "statement": "A data definition gives its values at its index; everywhere else, and for all other inputs, the value there before stays.", "quantifier": "every list of data definitions and every dataset", "why_tests_cant": "any earlier array, any index and dimensions", "anchors": ["src/calliope/preprocess/model_data.py:add_top_level_data_definitions", "src/calliope/preprocess/model_data.py:_add_to_dataset"]}
{"id": "C91", "title": "Colours and link distances are completed, not changed", "statement": "Every technology ends with a colour and, if nodes have coordinates, every link with a distance: the one given, else one of the palette, and the geodesic distance of its two nodes in the configured unit. Enough colours give distinct ones; links that are not at exactly two nodes are refused.", "quantifier": "every dataset, palette and distance function", "why_tests_cant": "any number of technologies and partially given values", "anchors": ["src/calliope/preprocess/model_data.py:add_colors", "src/calliope/preprocess/model_data.py:add_link_distances", "src/calliope/preprocess/model_data.py:_get_distance"]}
{"id": "C92", "title": "A supply technology with a store gives out what came in", "statement": "In every solution, what a supply technology with a store holds after a timestep is what remained of the step before plus what its source provided minus all it gave out; nothing is given out that was not there or did not come in.", "quantifier": "every solution, technology, node, output carriers, loss and timestep, cyclic or not", "why_tests_cant": "an invariant over all timesteps and any number of output carriers", "anchors": ["src/calliope/math/base.yaml:balance_supply_with_storage (727-751)"]}
{"id": "C93", "title": "Total curtailment is the unused part of what a source could provide", "statement": "In the results, total_curtailment of a supply technology is the fraction, over the hours the timesteps stand for, of what its source could provide that was not taken; it lies between zero and one.", "quantifier": "every solution of every shipped combination, technology, limit in any unit, constant or as a series, and weights", "why_tests_cant": "sums over arbitrary series and weights; tests compare one number of one model", "anchors": ["src/calliope/math/base.yaml:total_curtailment (1335-1348)"]}
{"id": "C94", "title": "The levelised cost of a carrier covers the costs of providing it", "statement": "In the results, total_levelised_cost of a carrier is the cost of the technologies that provide it divided by how much was generated, so that selling every carrier at its levelised cost pays for the whole system once.", "quantifier": "every solution, carrier, cost class and any number of technologies", "why_tests_cant": "a statement about sums over all technologies and carriers; tests have one carrier", "anchors": ["src/calliope/math/base.yaml:total_levelised_cost (1295-1305)"]}
{"id": "C95", "title": "Reported unmet demand closes the balance", "statement": "With ensure_feasibility, the reported unmet_sum at a node, carrier and timestep is exactly what is consumed and exported there minus what is put out.", "quantifier": "every solution of every shipped combination, node, carrier and timestep, any technologies and links", "why_tests_cant": "relates a result to all flows of arbitrary systems", "anchors": ["src/calliope/math/base.yaml:unmet_sum (1307-1319)", "src/calliope/math/base.yaml:system_balance"]}
{"id": "C96", "title": "Decision variables exist where they should and stay within their limits", "statement": "In every solution capacities lie within the limits given as inputs, flows and storage levels are not negative, flows exist exactly where a technology has the carrier, units are whole numbers, switches are off or on, and unmet demand and unused supply exist only if ensure_feasibility is set.", "quantifier": "every solution of every shipped combination of math files, node, technology, carrier and timestep, and any inputs", "why_tests_cant": "limits are merged from several files and missing entries become defaults; tests look at a few entries of one model", "anchors": ["src/calliope/math/base.yaml:869-1033", "src/calliope/math/milp.yaml:102-208", "src/calliope/math/storage_inter_cluster.yaml:115-161", "src/calliope/backend/backend_model.py:166-213, 1486-1516"]}
{"id": "C97", "title": "Scores of SPORES follow the chosen algorithm", "statement": "In a fresh SPORES run the baseline has score zero, and the score each further spore is penalised with comes from that of the spore before it by one step of the chosen algorithm: integer adds 1000 for capacities of relevant size, relative deployment adds the used part of the largest capacity, random adds 0 or 1000 where there is a capacity, evolving average replaces the score by the reciprocal of the relative change from the average of all results so far. Relative deployment is refused if the largest capacity of a tracked technology is undefined.", "quantifier": "every solver, number of spores, algorithm, threshold, tracked set, input capacities and random draws", "why_tests_cant": "scores depend on the whole history of results; tests run two or three spores with one solver and check only the first score", "anchors": ["src/calliope/model.py:746-874", "src/calliope/math/spores.yaml:1-60"]}
{"id": "C98", "title": "A time subset keeps exactly its inclusive range", "statement": "A time subset of two ISO dates keeps exactly the time steps from the first moment the start names to the last moment the end names, both included, with unchanged values; it is refused exactly if no day of the range is a day of the data, or if it is not a pair.", "quantifier": "every time series with gaps, every pair of periods, other settings absent", "why_tests_cant": "tests use a few subsets of the example year; the check looks at days and at the first day that the end names, so its behaviour at months, hours and reversed ranges is not seen", "anchors": ["src/calliope/preprocess/time.py:201-237", "src/calliope/preprocess/model_data.py:866-909", "src/calliope/schemas/config_schema.py:76-83"]}
{"id": "C99", "title": "Opening a model again applies only what changed", "statement": "A model that is saved and opened again with the settings it was opened with is unchanged, however often. Opened with other resolutions it keeps the totals of summed arrays and, once made, the hours; going to a coarser resolution in two steps is as going there at once. A clustering cannot be changed. The runtime record lists what has been applied.", "quantifier": "every history of openings with subset, resolution and clustering settings, every time series with gaps", "why_tests_cant": "tests open a model once; errors add up over histories of openings, as means of means or records that no longer match the data", "anchors": ["src/calliope/preprocess/model_data.py:686-697", "src/calliope/preprocess/model_data.py:782-810", "src/calliope/preprocess/model_data.py:911-924", "src/calliope/model.py:162-223", "src/calliope/schemas/runtime_attrs_schema.py:35-42"]}
{"id": "C100", "title": "A piecewise constraint ties y to the curve through its breakpoints", "statement": "At each label its condition chooses, a piecewise constraint allows exactly the pairs of x and y on the pieces that join the points of neighbouring breakpoints, each with the x and the y value given for it, and nothing is limited elsewhere. Different numbers of values, descending x values and missing breakpoints dimensions are refused and leave the problem as it was. Built again after a change of its values it is as built from the start, with either solver interface.", "quantifier": "every set of labels, condition, number of breakpoints and values with gaps; both solver interfaces", "why_tests_cant": "tests compare one LP file and error texts for three breakpoints without gaps; no test solves such a problem or changes the values of one", "anchors": ["src/calliope/backend/backend_model.py:912-992", "src/calliope/backend/backend_model.py:1464-1477", "src/calliope/backend/pyomo_backend_model.py:59-117", "src/calliope/backend/pyomo_backend_model.py:504-522", "src/calliope/backend/pyomo_backend_model.py:824-841", "src/calliope/backend/gurobi_backend_model.py:287-302", "src/calliope/backend/gurobi_backend_model.py:393-413"]}
{"id": "C101", "title": "An input that is not given has its default, whatever is given elsewhere", "statement": "In conditions and expressions an input has, wherever nothing is given for it, the default declared in the math, and what is given for it at one technology, node or other label does not change it at another. The name of an input as a condition holds where a value is given.", "quantifier": "every data set, declaration and label", "why_tests_cant": "tests give or omit an input for all technologies of one small model; the effect on the ones left out is not looked at", "anchors": ["src/calliope/preprocess/model_data.py:62-117", "src/calliope/preprocess/model_data.py:699-718", "src/calliope/backend/backend_model.py:573-595", "src/calliope/backend/where_parser.py:183-193", "src/calliope/backend/expression_parser.py:811-814", "src/calliope/math/base.yaml:499-501"]}
{"id": "C102", "title": "Inputs have the declared type and keep their value", "statement": "After a model is opened every value of an input that the math declares has the declared type; values that have it already, missing values and undeclared inputs are unchanged; opening fails exactly if a value cannot be read as the type; opening the result again changes nothing. A switch given as the text False is off.", "quantifier": "every data set, declaration and behaviour of the conversions of Python", "why_tests_cant": "tests convert single arrays; repeated opening and mixtures of types over all inputs are not covered", "anchors": ["src/calliope/preprocess/model_data.py:62-117", "src/calliope/preprocess/model_data.py:686-720", "src/calliope/preprocess/model_data.py:813-846", "src/calliope/schemas/math_schema.py:60-130", "src/calliope/schemas/math_schema.py:475-488"]}
{"id": "C103", "title": "Shadow prices in results are those of the solution", "statement": "After a successful solve the results hold, for exactly the constraints listed in config.solve.shadow_prices that exist, the shadow prices of this very solution; none with binary or integer variables or a solver that gives none; whatever was solved, switched on or off or changed before.", "quantifier": "every history of solving, switching tracking on and off and changing the problem; every list of names and solution", "why_tests_cant": "tests solve once per case; results after a second solve with another solver or after adding integer variables are not compared", "anchors": ["src/calliope/backend/backend_model.py:1421-1445", "src/calliope/backend/backend_model.py:1537-1600", "src/calliope/backend/pyomo_backend_model.py:176-177", "src/calliope/backend/pyomo_backend_model.py:340-385", "src/calliope/backend/pyomo_backend_model.py:844-890", "src/calliope/backend/gurobi_backend_model.py:490-524", "src/calliope/model.py:352"]}
{"id": "C104", "title": "Sound coordinates and index lists are accepted, others refused", "statement": "A node definition is accepted exactly if it gives no coordinates or a latitude within 90 and a longitude within 180 degrees; the index list of a parameter is accepted exactly if it is not empty and no entry occurs twice.", "quantifier": "every pair of coordinates and every index list of labels or of lists of labels", "why_tests_cant": "tests give both coordinates as whole numbers or both as fractions and no index entry with the same label twice", "anchors": ["src/calliope/schemas/dimension_data_schema.py:20-64", "src/calliope/schemas/dimension_data_schema.py:89-117", "src/calliope/schemas/general.py:22-45"]}
{"id": "C105", "title": "The math documentation shows what was asked for and its cross references are right", "statement": "MathDocumentation can be written for every math that can be built; with include=\"all\" it shows every active component with all its equations, with \"valid\" exactly those that apply somewhere; \"Uses\" and \"Used in\" mirror each other, list exactly the components named in the definitions and only entries of the document.", "quantifier": "every math (any components, conditions, equations and references), both settings of include", "why_tests_cant": "tests add single components to a small math and look for one text; components that apply nowhere, deactivated variables and one-letter names are not combined with the settings", "anchors": ["src/calliope/backend/latex_backend_model.py:330-640", "src/calliope/backend/latex_backend_model.py:686-782", "src/calliope/backend/backend_model.py:167-404", "src/calliope/backend/backend_model.py:705-752", "src/calliope/postprocess/math_documentation.py:16-41"]}
{"id": "C106", "title": "Results hold the values of what was solved; deactivated components leave no trace", "statement": "After a solve, model.results holds exactly the values of active variables, global expressions and objectives, the shadow prices, and the active postprocessed arrays computed from them; components with active: false have no influence, whatever their names.", "quantifier": "every math, every solution, every list of postprocessed arrays in any order", "why_tests_cant": "tests deactivate components whose names are not used by anything else", "anchors": ["src/calliope/backend/backend_model.py:1392-1447", "src/calliope/backend/backend_model.py:682-703", "src/calliope/backend/backend_model.py:362-404", "src/calliope/backend/backend_model.py:573-595", "src/calliope/backend/backend_model.py:804-846", "src/calliope/schemas/math_schema.py:422-473"]}
{"id": "C107", "title": "The shipped input checks refuse exactly the models their messages describe", "statement": "Building a model is refused (or warned about) by the checks of base, milp and operate math exactly if a technology at some node has inputs as the message describes: missing base_tech, distances outside transmission, negative costs of unlimited capacities, infinite demands, coordinates for some nodes only, export of carriers that are no outflows, initial storage outside [0, 1], cyclic storage with clustered time, conflicting capacities.", "quantifier": "every model (any inputs), every combination of mode and pre-defined extra math", "why_tests_cant": "tests trigger each check once, with inputs chosen to trigger it; inputs that a message describes and the condition misses are not searched for", "anchors": ["src/calliope/math/base.yaml:1350-1421", "src/calliope/math/milp.yaml:471-490", "src/calliope/math/operate.yaml:87-93", "src/calliope/math/storage_inter_cluster.yaml:163-165", "src/calliope/backend/backend_model.py:597-623"]}
{"id": "C108", "title": "Storage in linked representative days keeps account of energy from date to date", "statement": "With linked clusters, what is in store at a time of a date (what it started with, less losses, plus what its representative day has added) follows the charging and discharging of that day; the next date starts with what was in store at the end of the date before, less losses; nothing is created or lost over all dates; the sum stays between empty and the storage capacity; and the first date starts with the given fraction of the capacity.", "quantifier": "every number of dates, representative days and timesteps of any length, every assignment of dates to days, every flow series and loss rate, every combination of mode and extra math with linked clusters", "why_tests_cant": "tests compare a few totals of one clustered year; the meaning of the superposition of the two storage variables is an induction over dates and timesteps for any assignment", "anchors": ["src/calliope/math/storage_inter_cluster.yaml:39-113", "src/calliope/math/base.yaml:balance_storage"]}
{"id": "C109", "title": "Storage in representative days that are not linked gives back, day by day, what it takes", "statement": "If timesteps are clustered and clusters are not linked, each representative day starts with what is left at its own end: over the day storage gives back what it takes (with losses, no more than that), over all dates what it gives back is what it took, and the first day of storage that is not cyclic starts with the given fraction of the capacity.", "quantifier": "every number and length of representative days, every weights, flow series and loss rate, every combination of mode and extra math without linked clusters", "why_tests_cant": "tests build the constraint for one clustering; that no day creates energy is an induction over timesteps of any day and a sum over any set of days", "anchors": ["src/calliope/math/base.yaml:736-752", "src/calliope/math/base.yaml:783-797", "src/calliope/math/base.yaml:799-815"]}
{"id": "C110", "title": "Time clustering prepares representative days as the storage rules need them", "statement": "The arrays that time clustering adds (clusters, weights, first and last timesteps of days and of dates) describe, for every date, a run of timesteps that are the times of its representative day; the timesteps are these days one after the other and the weights count all dates; so, from clustering to solution, cyclic storage without losses gives back over all dates what it took, with and without linked clusters.", "quantifier": "every assignment of dates to representative days, every increasing series of times, every world holding the arrays that clustering computes, every combination of mode and extra math", "why_tests_cant": "it composes preprocessing with the meaning of constraints: tests check either the arrays of one clustering or one solved example, not that the rules conserve energy for any clustering", "anchors": ["src/calliope/preprocess/time.py:131-173", "src/calliope/preprocess/time.py:260-293", "src/calliope/math/storage_inter_cluster.yaml:39-113", "src/calliope/math/base.yaml:736-752"]}
{"id": "C111", "title": "A model saved as CSV files is all there, and existing files are safe", "statement": "Saving as CSV gives one file for each input and each result, under different names, and attrs.yaml; each file holds the array: one row for each combination of labels (with dropna: that has a value), with its value. Files and paths other than these are unchanged. Without permission to overwrite, an existing path is refused with nothing changed. The run command saves to every target that it is given.", "quantifier": "every model with differently named arrays of any dimensions, every disk, every path, both settings of dropna and allow_overwrite", "why_tests_cant": "tests save one example model and look for a few file names; they do not read files back, nor show that no combination of names or earlier content collides", "anchors": ["src/calliope/io.py:183-221", "src/calliope/model.py:419-449", "src/calliope/cli.py:306-311"]}
{"id": "C112", "title": "Storage keeps its energy over a whole receding-horizon run", "statement": "When every window of operate mode is a problem of the shipped math, solved from the initial storage that the previous window left, the trajectory put together from the windows obeys the storage balance of one problem over the whole period; without losses the level at any timestep is the initial level plus all that was charged and not discharged in the kept timesteps so far.", "quantifier": "every series of timesteps without gaps, window and horizon, every solver that satisfies balance_storage, every storage that is not cyclic, all formulations without linked clusters", "why_tests_cant": "combines the math of every window with the whole history of windows; tests run one example for two windows", "anchors": ["src/calliope/model.py:466-599", "src/calliope/math/base.yaml:783-830", "src/calliope/math/operate.yaml"]}
{"id": "C113", "title": "A SPORES run reports how its solver calls ended", "statement": "The termination condition that a SPORES run reports names the conditions of all solver calls that its results come from, each once; a run that stops because a spore is infeasible shows this in the condition it reports.", "quantifier": "every solver, every number of spores, every configuration of a fresh run", "why_tests_cant": "depends on every sequence of outcomes of the solver; tests only see runs where all spores are optimal", "anchors": ["src/calliope/model.py:601-702"]}
{"id": "C114", "title": "Setting the verbosity shows the messages asked for, once", "statement": "After setting the verbosity, whatever was set before, each message of Calliope is written once if its level is at least the verbosity and not at all otherwise; output of the solver and Python warnings are shown if asked for; a verbosity that is refused changes nothing.", "quantifier": "every verbosity, every earlier state of the loggers and their handlers, every logger below \"calliope\", every level", "why_tests_cant": "depends on every earlier sequence of settings and on handlers that other code has added", "anchors": ["src/calliope/util/logging.py:15-93"]}
