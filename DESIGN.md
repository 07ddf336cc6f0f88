# Formal model of calliope: design

The model is written in Rocq (Coq 8.16.1), standard library only, under
`rocq/theories`. It is a shallow model: each modelled Python function is a total,
computable Gallina function, with exceptions as values (`Err e`). Every definition
cites the file and lines it follows in `/repo` (paths are relative to
`/repo/src/calliope`). The code was read, not run.

## Layout

* `Base.v`: result type, ordered dictionaries (association lists), string splitting.
* `<Area>Model.v`: the model of one part of the code. No proofs.
* `<Area>Spec.v` (where useful): the independent specification.
* `<Area>Proofs.v`: lemmas.
* `<Area>Props.v`: the property theorems, each closed by `exact <lemma>`, followed by
  `Print Assumptions` and concrete examples meeting the hypotheses.

## Trusted base

* Coq's kernel, including its virtual machine (`vm_compute` is used for concrete examples,
  witnesses and for reading the shipped math texts). `coqchk` re-checks all files without it.
* `Print Assumptions` follows every property theorem in the `...Props.v` files. All of them
  report "Closed under the global context": no axiom of the standard library is used, none is
  added.
* The reading of the code: faithfulness of each model function to the lines it cites, and of
  `MathText.v` to the YAML files it was copied from. Simplifications are stated in the comment
  of each definition.
* The meaning given to library calls that calliope makes, as far as the cited code uses them:
  Python dictionaries and sets (a set is listed in an arbitrary order, a parameter of the model),
  pyparsing's ordered choice, xarray label alignment, broadcasting, `where`, `fillna`, `roll`,
  `groupby`, `sum(min_count=1, skipna=True)`, pandas resampling of fixed steps, netCDF attribute
  storage, the shell that runs generated scripts. The optimiser is an arbitrary function.
* Numbers are exact rationals (plus infinities, truth values, texts and "missing"), not floats.

## Plan per property

| Property | What is modelled | How it is proved |
|---|---|---|
| C01 | `AttrDict.set_key/get_key` on nested ordered dictionaries, dotted keys split at dots, exceptions as values | induction over the path; the catch-all `except KeyError` is modelled as written, the resulting data loss at depth three is a `_refuted` theorem, the guarded law is proved |
| C02 | `keys_nested`, `as_dict_flat`, `init_from_dict` | induction over the nested dictionary |
| C03, C04, C05 | `AttrDict.union` as a fold of checked `set_key` calls | leaf-wise characterisation by induction over the flat key list |
| C06 | `del_key` | induction over the path |
| C07, C08, C09 | `prepare_model_definition`, `_load_scenario_overrides`, `_combine_overrides`, `_load_overrides_from_scenario` | composition of union laws; permutation arguments; fuelled recursion with explicit divergence value |
| C10 | `TemplateSolver` | recursion with explicit stack; termination by the number of unused template names |
| C11 | `_resolve_yaml_imports` over a file system given as a finite map | fold over imports |
| C12, C13 | `build_math`, `get_math_priority`, `initialise_math`, name uniqueness | fold of unions, list arguments |
| C14 | `update` of nested configuration models | induction over the tree |
| C15, C16 | `_serialise`, the netCDF attribute store (collapses one-element lists), `_deserialise`, `save_netcdf` with failure points | step by step commutation |
| C17, C18 | `_prepare_operate_mode_inputs`, `_solve_operate`, `_recalculate_storage_initial` with the solver as an arbitrary function | list arithmetic, induction over windows |
| C19, C20, C21 | `_solve_spores`, lifecycle flags, `_apply_zero_threshold` | state machine invariants, solver outcome as an arbitrary stream |
| C22, C23 | `resample`, `cluster`, `_lookup_clusters` | sums over groups |
| C24, C25, C26, C27 | `_links_to_node_format`, `_inherit_defs`, `_drop_undefined`, `_add_to_dataset` | list and finite-map arguments |
| C28, C29, C30, C31 | `generate_scenarios`, `generate_runs`, `generate_bash_script`, `generate_sbatch_script`, option passing in `run` | lists, decimal digit strings |
| C32, C33, C34, C48 | token-level grammars of the pyparsing definitions, evaluation, rendering | print/parse round trip by induction over expression trees |
| C35, C38, C39, C47 | condition evaluation over index assignments, `_eval_equations`, `drop_dims_not_in_foreach`, `_check_inputs` | induction over conditions / equations |
| C36, C37 | `extend_equation_list_with_expression_group`, `_find_items_in_expression` | Cartesian product lemmas, tree induction |
| C40, C41, C42 | `Roll`, `Sum`, `GroupSum`, `SumNextN` | modular arithmetic on indices, sums over lists |
| C43, C44 | `_update_input`, `_find_all_references`, `_rebuild_references` | invariant over update histories |
| C45, C46 | `set_objective`, `update_variable_bounds`, `fix_variable`, `unfix_variable` | invariant over operation sequences |
| C49 | `print_warnings_and_raise_errors` | sorting / de-duplication |
| C50 | the texts of `math/*.yaml` (`MathText.v`), read with the modelled grammars, layered as `build_math` does (all 15 combinations), built over an arbitrary data set (`ShipModel.v`) | Boolean case analysis of the conditions; exclusiveness is decided once for each combination and lifted to all data |
| C51, C56 | balance_storage, storage_previous_step, set_storage_initial and the inter-cluster constraints | induction over timesteps; witness with linked clusters |
| C52 | system_balance, balance_transmission, flow efficiencies | sums over nodes, technologies and carriers; witness: link with two carriers |
| C53, C71, C79, C80, C81 | MILP constraints together with the base ones | conditions are decided from facts about the data (`cond3`, three-valued), values from `entry_of`; witnesses satisfy *all* constraints, checked by a verified checker (`feasible_check`, `ShipFast.v`) |
| C54, C82, C83, C84 | the `postprocessed` section and cost_operation_fixed | as above; witnesses are full solutions |
| C74, C92 | ramping_up, ramping_down, balance_supply_with_storage of base.yaml | readings of expressions that look one timestep back (`roll`, `$storage_previous_step`, `StepText.v`), induction over timesteps; witnesses are full solutions |
| C93, C94, C95 | total_curtailment, total_levelised_cost, unmet_sum of base.yaml; also force_zero_area_use (C76) and the minima of milp.yaml (C80) | values of results computed from solved variables (`post_value`), combined with the constraints (C72, C52); witnesses are full solutions (`RestExample.v`) |
| C96 | `bounds`, `domain` of all variables and their merging (`BoundModel.v`), `add_variable` with `_get_variable_bound` | a variable has a value exactly where its condition holds, within the limits; conditions by `cond3` as for C71; the witnesses of the refutations in C53 - C55, C71, C74, C82, C84, C92 - C94 are such solutions too |
| C85, C86 | `DataTable._df_to_ds` and the schema check: frames with named levels, stacking, select, drop, add_dims, checks, dataset; frames shared by tables are state | every step keeps a list of entries by row and column number; uniqueness by a NoDup argument |
| C87, C88 | `tech_dict`, `node_dict`, `lookup_dict_from_param`, `init_from_data_tables` up to the dataset | list arguments over entries |
| C89 | `add_node_tech_data`, `_definition_dict_to_ds`, `_prepare_input_data_dict`, `_input_data_dict_to_array`, `_get_relevant_node_refs` | `union` works key by key, so settings no node gives itself are the same at all nodes; accumulated arrays as lists of settings |
| C90, C91 | `add_top_level_data_definitions`, `add_colors`, `add_link_distances` | reading lemmas of C27; filling gaps |
| C55, C73 | cost expressions and the objective of base/operate/milp math | as above; geometric sums by induction over the lifetime |
| C57 | `_REPLACE_` in `AttrDict.union` | induction over the path |
| C59, C66 | names in where strings and expressions, substitution of sub-expressions and slices | induction over expression trees |
| C60, C61, C97 | data of windows in `_solve_operate`; all scoring algorithms in `_spores_update_model` (`SporesScore.v`) | induction over windows and iterations; each step against a relation on the results so far |
| C98, C99 | `check_time_subset`, time part of `_subset_dims`, `_resample_dims`, `update_and_resample_dimensions` over several openings (`AgainModel.v`) | days of the range compared with days of the data; induction over openings, regrouping of intervals |
| C100 | `add_piecewise_constraint`, `_to_piecewise_constraint` and `delete_component` of both interfaces (`CurveModel.v`) | weights of neighbouring breakpoints are equivalent to points on the pieces, by induction over the curve |
| C101, C102 | `_update_dtypes`, `clean`, `_add_inputs` and the filling of defaults in conditions and expressions (`KindModel.v`) | each conversion keeps values of its type, so the second update of types and later openings change nothing; defaults by cases on the type |
| C103 | `ShadowPrices` of both interfaces, their part in `solve` and `load_results` (`DualModel.v`) | invariants over histories of actions |
| C104 | checks of node coordinates and index lists (`CheckModel.v`) | exact characterisations; witnesses for the two refutations |
| C105 | `LatexBackendModel.add_*`, references, `generate_math_doc` (`DocModel.v`) | invariant over the components added; witnesses |
| C106 | `load_results`, `add_postprocessed_arrays` (`FinalModel.v`) | lookups in merged dictionaries; witnesses |
| C107 | `checks` of the shipped math files, layered (`GuardModel.v`), evaluated as in C47 | the 19 conditions read once, then proved equivalent to `violations` (`GuardSpec.v`) for any inputs; witnesses |
| C108 | storage_inter_cluster.yaml together with balance_storage of base.yaml; readings of `roll` over dates and of slices by lookup (`LinkText.v`) | the content at a time of a date is the sum of both storage variables (`LinkSpec.v`); induction over the timesteps of a day and over dates; witnesses are full solutions |
| C109 | balance_storage of base.yaml with clustered timesteps and no linking; reading of `select_from_lookup_arrays` (`LinkText.v`) | days as runs of timesteps with their last timestep (`DaySpec.v`); induction over the timesteps of a day, sum over all days by weights; witnesses are full solutions |
| C110 | `cluster` and `_lookup_clusters` of time.py (`TimeModel.v`) as inputs of the shipped math (`PrepSpec.v`) | days are contiguous in sorted times (`PrepProofs.v`); composed with C108 and C109; the witness is a full solution |
| C111 | `save_csv`, `to_csv`, `to_netcdf` and the end of `run` on a disk of directories and files (`CsvModel.v`) | rows are the product of labels (`CliProofs.v`); file names are injective; text form of files not modelled |
| C112 | `solve_operate` (`OperateModel.v`) with worlds of the shipped math as results (`RunSpec.v`) | C51 gives the balance of one window, C18 (for the initial levels that are met) joins the windows |
| C113 | `solve_spores` (`SporesModel.v`) | the loop keeps one condition per kept result (`SporesTerm.v`) |
| C114 | `setup_root_logger` and `set_log_verbosity` with Python's loggers as levels and handlers by name (`LogModel.v`) | the state after a call in terms of the one before (`LogProps.v`), then induction over the parts of a logger's name |
| C62 | `_subset_dims`-like selection with `_links_to_node_format` | list arguments |
| C63 | `run` command of `cli.py` with the solver outcome as parameter | case analysis |
| C64, C65 | `_apply_where_array`, helper functions `any`, `defined` (array and shown formula), `get_val_at_index`, `select_from_lookup_arrays`, `where` | array semantics with explicit dimensions (`HelperModel.v`, `HelperDefined.v`) |
| C67, C68 | `update_input` histories, `fix_variable` with a condition (Pyomo and Gurobi) | invariants over histories |
| C69 | building of every component of the shipped math: no overlapping equations, no missing reference | exclusiveness of conditions by Boolean cases |
| C70, C72, C75, C76, C77 | demand, supply, conversion, capacity, export and storage constraints of base.yaml | as C71 |
| C78 | spores.yaml: cost limit with `any(...)` in its conditions, objective | helper semantics of C65 and sums over all technologies |

## What a "solution" is

A *world* (`ShipModel.v`) gives labels of all dimensions, input arrays with defaults, and a value
for every entry of every decision variable and expression. `feasible order m U` says that every
active global expression has the value its text defines and every active constraint of the layered
math `m` holds at every entry it is built for. The theorems C50 - C56, C70 - C84, C92 - C95 and C108 - C110 hold for every
world (`proper`: labels without repetition, arrays depend on their dimensions only); refutations give a world that
satisfies every active constraint and expression unless their note says otherwise. `solution order
files U` (`BoundSpec.v`) adds limits, domains and existence of every active variable. Most theorems need
only the constraints they name, so variables appear in their hypotheses (a binary switch, non-negative flows);
C96 proves these hypotheses for every `solution`, and C71_solved, C79_solved combine the two.

## Modelled and not modelled, by source file

| File (src/calliope) | Modelled | Not modelled |
|---|---|---|
| `attrdict.py` | key access, union, flattening, `init_from_dict`, deletion | YAML text, import of `AttrDict` from files (see io.py) |
| `io.py` | imports 231-291, netCDF attributes 31-180, 294-333 | `save_csv` 183-221, file formats |
| `preprocess/model_definition.py` | 18-281 (overrides, scenarios, templates) | schema validation of the result |
| `preprocess/model_math.py` | 29-110 | - |
| `preprocess/model_data.py` | 153-180, 193-422, 424-576, 62-117, 604-644, 686-697, 699-780, 782-924 | log messages 578-602, the geodesic formula |
| `preprocess/time.py` | 18-45, 70-173, 201-237 | parsing of ISO dates (a period is given as its first and last minute) |
| `preprocess/data_tables.py` | `_df_to_ds`, `_rename_axes`, `_compare_axis_names`, both checks, `tech_dict`, `node_dict`, `lookup_dict_from_param` | `_read_csv`, the Series check, sorting of labels, data types |
| `schemas/` | uniqueness of names, `update` of configuration models, math component lists | other pydantic validation |
| `model.py` | lifecycle 160-223, 271-417, 876-899; operate 466-599; SPORES 601-874 | `info`, string representations |
| `backend/expression_parser.py`, `where_parser.py` | grammars, evaluation, rendering | error messages and positions |
| `backend/parsing.py` | equations, sub-expressions, slices, conditions | error texts |
| `backend/helper_functions.py` | all helper functions' array semantics | rendering except where C42/C48 says so |
| `backend/backend_model.py` | building 318-471, 573-802, updates, references, bounds, zero threshold 1392-1447, piecewise constraints 912-992, shadow prices 1421-1445, 1537-1600 | logging |
| `backend/pyomo_backend_model.py`, `gurobi_backend_model.py` | objectives, bounds, fixing, parameters, piecewise constraints | solver calls, LP files |
| `backend/latex_backend_model.py`, `postprocess/math_documentation.py` | rendering of expressions (C48), contents and references of documents (C105) | layout and order of documents |
| `cli.py`, `util/generate_runs.py` | generation of scripts, option passing, exit status | click itself |
| `math/*.yaml` | conditions, expressions, sub-expressions, slices of all components (`MathText.v`), bounds and domains (`BoundModel.v`) | units, titles, defaults |
| `examples.py`, docs | - | everything |

## Findings

Violations of documented or expected behaviour that are proved by a `..._refuted` theorem are
listed with their claim in `MANIFEST.json`. The ones in the shipped math:

* `total_generation` weighs exports but not outflows by the timestep weight (C54), so levelised
  costs are too high whenever weights differ from one (C84).
* `cost_om_annual` of a link is charged at both ends (C82).
* With a negative interest rate no depreciation rule applies and the investment costs nothing (C55).
* The minimum number of units is enforced only where a maximum is given (C53).
* `available_flow_cap` may have no upper limit with integer dispatch (C71).
* Links with two carriers may turn one carrier into the other (C52).
* With linked clusters `storage_initial` is taken as a level instead of a fraction (C56).

Other findings with consequences for users:

* `cyclic_storage` is on by default, but setting it for one technology switches it off for all others
  for which it is not given (C101).
* A boolean input given as the text "False" counts as true (C102).
* A second solve with CBC reports the shadow prices of the earlier solution (C103).
* A node at latitude 54 and longitude 2.5 is refused; 54.0 and 2.5 are accepted (C104).
* A math with a deactivated variable cannot be documented; documents with `include="all"` show no equations for
  components that apply nowhere (C105).
* A deactivated postprocessed array removes the results of the variable of the same name (C106).
* A clustered model without storage is refused for its cyclic storage; exporting a carrier the technology does not use
  is accepted; the depth of discharge has an effect although a warning says otherwise (C107).
* With linked representative days: stored energy loses too little at the end of each day; without cyclic storage the
  initial storage is handed out on every date the first day represents; the first date also starts with the fraction
  `storage_initial` itself, not multiplied by the capacity (C108).
- Clusters that are not linked: without cyclic storage the initial storage counts once for each date that the first day stands for; with cyclic
  storage the first day does not start from `storage_initial`, only the last representative day ends there (C109).
- Time clustering looks up the ends of days at midnight only: if no timestep is at midnight, linked clusters let storage give out
  energy that it never took in (C110).
- `calliope run --save_csv=out --save_netcdf=out.nc` with an existing directory `out` is refused only after solving, and before the
  netCDF file is written: the results are lost (C111).
- A SPORES run that stops at an infeasible spore reports the termination condition of the spores it
  has, usually "optimal" (C113).
- If Python's root logger has a handler, messages are shown twice; verbosity 0 hides messages instead of
  showing all; a refused verbosity still switches solver output on and replaces the console (C114).

## Checking time

`vcheck` takes 30 to 40 minutes (38 in the last complete run): the build about ten, `coqchk` (which has no virtual machine)
the rest; most of it are the checked solutions in `...Example.v`.
