# Formal model of SLIDE in Rocq (Coq 8.16.1): design

Source: `/repo` (C++20, read as text, never built or run). Model and proofs: `/verif/rocq/theories`.

## 1. Method

* **Model files** (`*Model.v`) hold small total Gallina functions, one per C++ function, each with a
  comment citing file and lines, and any simplification. They contain no proofs.
* **Specification files** (`*Spec.v`) hold the vocabulary of the theorems (circuit laws, grids, files, histories), written without the
  model's helpers where that is possible. **Proof files** (`*Proofs*.v`, `SpmReal.v`, `SpmDiff.v`, ...) hold the lemmas.
* **Property files** (`P_*.v`) hold the theorems `Cnn_...`, their non-vacuity examples (`..._inhabited`, `..._ex`) and
  `Print Assumptions`.
* **Outcome type.** C++ exceptions, undefined behaviour (out-of-bounds access, cast of a NaN to int,
  null dereference, `% 0`) and normal return are distinct: `Ok a | Throw code | UB | Fuel`.
  Loops that the code does not bound use fuel with the distinct outcome `Fuel`; theorems either prove that enough fuel exists or
  say what holds of every run that ends.
* **State.** A function that changes an object is `S -> S * res B`: the object after a throw is part of the result, so
  "a rejected command changes nothing" can be stated.
* **Numbers.** All functions that compute on `double` are written once, over an arbitrary carrier with the
  operations the code uses (`Class Num A`). Two instances:
  * `SFNum : Num f64`: IEEE binary64 with round-to-nearest-even, from the standard library's `SpecFloat`
    (executable, axiom free). Used for concrete counterexamples: these are what the C++ program computes.
  * `RNum : Num R`: the mathematical reals, for laws that hold up to rounding only.
  A theorem quantified over *every* carrier (`forall A (NA : Num A)`) holds for doubles, including NaN,
  infinities and rounding, and for reals.
* **Parameters of the model.** `exp`, `asinh` and `pow` (record `fns`), the conversion of one numeral of a CSV file, the random
  engine of the factories, the outcomes of storage units below a cycler or procedure (records of operations, instantiated with the modelled
  cells and modules where the theorem says so), the schedule of worker threads. Theorems quantify over them.
* **A property the code violates** gets a theorem `..._refuted` with a concrete witness evaluated on the model
  and a theorem suffixed `_partial` with the strongest true version. Section 4 lists these findings.
* **Seeded bugs.** `seeded/LOG.jsonl` records edits of the model in scratch copies, the theorems that failed on them and the theorems tightened
  because they did not.

## 2. Properties: what is modelled and how it is proved

Status `partial` means: the full statement is in `properties.jsonl`; the theorems whose names end in `_partial` say what is missing, and theorems whose names end in `_refuted` show where the code does not satisfy it.

| id | property | status | modelled in | how it is proved |
|----|----------|--------|-------------|------------------|
| C01 | Status classification is a total, exclusive partition | proved | StatusModel | finite case analysis, induction over lists of statuses |
| C02 | Linear interpolation returns the piecewise-linear function of the table | proved | UtilModel (linInt) | case lemmas for any carrier; chord, knot and bounds laws over R by induction over the table |
| C03 | The fixed-step shortcut of interpolation is only a shortcut | partial | UtilModel (check_is_fixed) | equality for exactly uniform tables over R; refuted for accepted tables with drift |
| C04 | Generated grids hit their end points, have the requested length and are evenly spaced | proved | UtilModel (linspace, FixedData) | over R by induction and field |
| C05 | Histograms lose no sample and put each one in its bin | proved | UtilModel (Histogram) | invariant over the list of samples; undefined when the cast overflows or for NaN |
| C06 | Parallel execution runs every task exactly once | proved | DataModel (run) | strided partition is a permutation of [0,n); any interleaving of commuting updates gives the same result |
| C07 | Fixed-capacity vectors never write outside their storage | partial | DataModel (SmallVector) | invariant over operation lists |
| C08 | Saving and restoring a set of states brings back every saved value | proved | DataModel (StateStorage) | heap of addresses, induction over the added spans |
| C09 | Data written to disk is complete, in order and parseable as rows | partial | DataModel (CellDataWriter) | token stream and independent row parser, induction over rows |
| C10 | Copies of storage units are independent of the original | partial | ObjModel | heap of units, deep copy; separation invariant |
| C11 | The voltage check of a cell follows the documented decision table | proved | CellModel (checkVoltage) | case analysis for any carrier; decision table over R |
| C12 | Rejected ECM commands leave the cell unchanged; accepted ones take effect | proved | CellModel (ECM) | any carrier |
| C13 | Reading out and writing back the states of an ECM cell is the identity | proved | CellModel (ECM) | any carrier |
| C14 | ECM charge accounting is exact | proved | CellModel (ECM) | induction over histories, R |
| C15 | ECM polarisation currents relax towards the cell current and stay bounded | proved | CellModel (ECM) | induction over steps, R |
| C16 | ECM time steps compose | proved | CellModel (ECM) | induction over steps |
| C17 | A voltage command on an ECM cell delivers that voltage | proved | CellModel (ECM), setVoltage | bisection invariant, R |
| C18 | A cell's state of charge stays physical under any sequence of accepted commands | partial | CellModel (ECM) | invariant over command lists |
| C19 | Rejected single-particle-cell commands leave the cell unchanged | partial | SpmModel | any carrier |
| C20 | The voltage reported by a single-particle cell is always that of its present state | partial | SpmModel | cache-coherence invariant over histories; refuted operations listed |
| C21 | Single-particle charge accounting is exact | proved | SpmModel | induction over histories, R |
| C22 | Solid diffusion is linear and inert without current | proved | SpmModel, SpmDiff | linearity and eigenmode algebra over R |
| C23 | Degradation only ever degrades | partial | SpmModel, SpmAge | sign analysis of every rate over R, induction over steps |
| C24 | State vectors of single-particle cells round-trip | partial | SpmModel, SpmRound | any carrier |
| C25 | Cell-to-cell variation arguments are honoured | partial | SpmModel, SpmScale | simulation between scaled cells over R |
| C26 | Module aggregates follow circuit laws at any nesting depth | partial | ModuleModel | structural induction over trees of any depth |
| C27 | Series current commands are all-or-nothing | partial | ModuleModel | induction over children; refutations by evaluation |
| C28 | Module state vectors round-trip at any nesting depth | proved | ModuleModel | structural induction, any carrier |
| C29 | A failed module state restore changes nothing | partial | ModuleModel | structural induction, any carrier; every refused redistribution classified |
| C30 | The voltage reported by a series module is that of its children now | partial | ModuleModel | invariant over histories of trees |
| C31 | Parallel branch voltages follow the contact-resistance ladder | proved | ModuleModel | induction over branches, R |
| C32 | Parallel current commands deliver the total current with equal branch voltages | partial | ModuleModel (Module_p) | loop invariant of the redistribution, R; refutations by evaluation |
| C33 | All cells of a module advance together, independent of thread schedule | proved | ModuleModel, DataModel | every schedule of workers gives the sequential result |
| C34 | Heat generated in contact resistances is r I^2 t | partial | ModuleModel | induction over children and over histories of calls, R |
| C35 | getVhigh and getVlow are the extreme cell voltages of the tree | partial | ModuleModel | structural induction |
| C36 | Blocking degradation and thermal updates reaches every cell | partial | ModuleModel, BattModel | structural induction |
| C37 | The module voltage check reports the worst child and the sum of voltages | proved | ModuleModel | induction over children |
| C38 | Full identifiers are unique and spell the path from the root | proved | ObjModel | strings over the heap of units |
| C39 | Coolant temperature stays in its allowed range | proved | CoolModel | invariant over histories |
| C40 | Fan control is a hysteresis controller | proved | CoolModel | case analysis over any history |
| C41 | Every joule of cooling energy is reported exactly once | proved | CoolModel, ModuleModel, BattModel | ledger invariant over histories |
| C42 | The air-conditioning power is bounded by its rating and follows its control law | partial | CoolModel (HVAC) | real inequalities |
| C43 | Thermal exchange conserves energy | proved | CoolModel, ModuleModel, BattModel | energy balance over R |
| C44 | Converter losses are positive and at least the documented stand-by loss | partial | BattModel (Converter) | real inequalities |
| C45 | A battery scales its cells consistently | partial | BattModel | algebra, any carrier |
| C46 | Converter losses of a battery are accumulated and handed out once | proved | BattModel | ledger invariant over histories |
| C47 | Battery state restore is faithful | partial | BattModel | any carrier |
| C48 | Resting takes exactly the requested time | proved | CyclerModel | loop invariant with fuel |
| C49 | A constant-current procedure never exceeds its time limit and accounts its charge | partial | CyclerModel | loop invariant, R |
| C50 | A constant-current procedure that reports its voltage limit has reached it | partial | CyclerModel | loop invariant |
| C51 | A constant-voltage procedure runs for its time limit and reports it | partial | CyclerModel | loop invariant |
| C52 | CCCV reports the sum of its phases | partial | CyclerModel | composition of phases |
| C53 | A capacity test leaves the unit as it found it | partial | CyclerModel | composition; restore of states |
| C54 | No more samples than the buffer size wait in memory, and none is lost | proved | CyclerModel | ledger invariant over calls |
| C55 | Visiting a unit tree reaches every unit exactly once | proved | ProcModel | structural induction |
| C56 | Balancing brings every cell to the balancing voltage or reports failure | partial | ProcModel | structural induction |
| C57 | Cycle ageing performs the requested number of cycles or stops at the first failed half-cycle | proved | ProcModel | loop invariant |
| C58 | Recorded throughput entries are per step and sum to the total | partial | ProcModel | ledger invariant |
| C59 | An accepted OCV curve is a usable OCV curve | partial | FitModel (validOCV) | induction over the table |
| C60 | The grid search returns the best grid point | partial | FitModel (hierarchical search) | induction over grids and levels |
| C61 | The rank-one Cholesky update is correct | partial | DataModel (cholUpdate) | induction over rows and columns, algebra over R |
| C62 | A module only ever owns units that are free | partial | ObjModel | ownership invariant over histories |
| C63 | CSV matrices are read back as written | partial | CsvModel | byte-level automata, induction over files |
| C64 | Different degradation settings have different identifiers | proved | DataModel (DEG_ID) | injectivity by parsing back |
| C65 | Cooling is paid for and effective as the fan turns | proved | CoolModel | real analysis of the fan law |
| C66 | The daily use case follows its published day | proved | ProcModel | induction over days, any outcome of each call |
| C67 | A check-up does not disturb the experiment | partial | ProcModel | frame argument |
| C68 | The simulated slow discharge ends and conserves lithium | partial | DischModel | closed form of the simulation by induction, R; refutations by evaluation |
| C69 | The pack factories build the pack their name says | partial | FactModel | induction over levels, any carrier; sizes over R |
| C70 | The adaptive Markov chain keeps a valid proposal and samples the posterior | partial | McmcModel | matrix algebra on the Cholesky update of a diagonal factor, Cauchy-Schwarz, induction over histories, R |
| C71 | Usage statistics account for all heat, time and energy | partial | StoreModel | invariant over histories of events (R); induction over trees, any carrier |
| C72 | Voltage, resistance and polarisation of a single-particle cell | proved | SpmModel | split of the voltage into OCV, overpotentials and ohmic drop; monotonicity of asinh and exp, R |
| C73 | Heat and temperature of a single-particle cell balance | proved | SpmModel | ledger over the parts of a call, R |
| C74 | Degradation models combine additively and conserve lithium | proved | SpmModel | calls factored through the selected models; linearity and permutation of the lists, R |
| C75 | No call on a well-formed unit leaves its arrays | proved | all unit models | structural safety of an interface (record safe_unit) proved for cells and preserved by modules; induction over depth and history |
| C76 | Temperature acts on a single-particle cell as Arrhenius' law says | proved | SpmModel | closed form of a call (C74) and of diffusion (C12); Arrhenius factors of two temperatures compared, R |
| C77 | In double precision clocks and books drift by a few rounding units per step at most | proved | CellModel, CyclerModel at binary64 | doubles of SpecFloat related to real numbers through Flocq; error of a chain of sums; Sterbenz lemma for the last step of a run; R |
| C78 | Each ageing model follows its own law, each electrode its own parameters | proved | SpmModel | closed form of the sum over the selected models; stresses tracked through a call; induction over calls, R |
| C79 | Which state vectors a single-particle cell accepts | partial | SpmModel | every check as a real inequality; evaluation at not-a-number, R and binary64 |
| C80 | Cycling a string of cells counts every coulomb | partial | PackModel over ModuleModel and CyclerModel | Hoare triples over the cycler monad, invariant on all leaves; induction over depth, turns of the loop and calls, R |
| C81 | A battery of identical cells behaves as one cell, scaled | proved | ModuleModel, CyclerModel, PackModel | induction over depth: each operation on a replica is the cell operation; then a simulation of the cycler loops, R |
| C82 | What modules and cyclers promise does not depend on the kind of cell | partial | FleetModel, ModuleModel, SpmUnitModel, CyclerModel | laws of a kind of cell, proved for both kinds; induction over depth for any lawful kind; Hoare-style rules for the cycler loops, R |
| C83 | A single-particle cell's counters are trustworthy in double precision | proved | SpmModel at binary64 | as C77: the loop adds the same double at every step, ageing adds zero; closure of the voltage under doubles for the energy counter; R |
| C84 | Interpolated table values are trustworthy in double precision | partial | UtilModel linInt at binary64 | rounding error of the chord from the relative error of each operation, absolute near zero; monotonicity of rounding inside an interval; refuted: exactness in table points; R |
| C85 | A check-up reports every cell and every module once | partial | ReportModel (output as pieces, commas and line ends) over the trees of ProcModel and the capacity test of CyclerModel | splitting lemmas, induction over trees; the kind of a cell is preserved by the test; witnesses in doubles; 0 |
| C86 | The cycler's charge counter is trustworthy in double precision | proved | CyclerModel in SpecFloat arithmetic, observed through the log of calls | weakest preconditions give the counter as an in-order sum over the log; rounding of one portion, then induction over the sum with an overflow guard |
| C87 | Drive cycles and pulse tests record what happened | partial | DriveModel: the loops of the two example programs over SpmModel and over any unit | induction over the profile and over the phases; a relation between cells that agree but for the counters gives independence; clock exact in doubles; R and any carrier |
| C88 | Prepared cells are where they were asked to be and recorded curves lose nothing | proved | PrepModel: init_cell_manual over any unit, the recorded sweep and the log over SpmModel, the long pack benchmark over the cycler | induction over the loops against runs of the unit alone; a subsequence relation for the lines left out; the log of calls for the benchmark; any carrier, R and doubles |
| C89 | Totals of packs in doubles are the exact totals up to a rounding per addition | proved | ModuleModel with the carrier of doubles | a relative error bound kept through sums, minima and maxima, by induction over lists and trees; sums in any order as a relation |
| C90 | Side reactions follow their rate laws at the anode's potential, at any current | proved | SpmModel: dState_degradation and the four families of side reactions, over R | each derivative computed symbolically against a separate file of rate laws, folds over the selected models by induction; bounds of the diffusion-limited current by real inequalities |
| C91 | An equivalent-circuit cell never gives back more energy than was put into it | proved | CellModel (ECM) over R, packs in ModuleModel | a storage function (integral of the open-circuit table plus the energy of the RC pairs) that no step raises by more than what was counted; induction over histories; packs: frame lemmas turn every call on a tree into a history of each cell |
| C92 | Time discretisation stays uniformly close to the continuous-time cell and converges to it | proved | CellModel (ECM) and SpmModel diffusion over R | variation of constants for the exact solution, a contraction argument for the global error, induction over histories; limit by the uniform bound |
| C93 | Balancing of parallel cells converges to the currents of the circuit laws | proved | ModuleModel (Module_p) over R | branches abstracted to source, resistance and capacity; a range of voltages that shrinks by a fixed factor per iteration, induction over iterations; the exact split by a sign argument; with contact resistances the squared deviations contract because the impedance matrix is symmetric and bounded; physics-based cells by the same shrinking range for any voltage that falls with the current; refuted by an invariant that swaps two voltages |
| C94 | Voltage commands on packs reach the commanded voltage | proved | ModuleModel (Module_p, Module_s, setVoltage_iterative) over R; the last finding in binary64 | units abstracted to source and resistance with the set of accepted currents; the distance to the target shrinks by a fixed factor per iteration; the secant step is exact on a line; physics-based cells for any voltage that falls with the current at a bounded rate; refuted by a distance that never changes and by evaluation |
| C95 | A new equivalent-circuit cell is what was asked for and keeps still | proved | CellModel (constructors, V, validStates, timeStep_CC) over R | the fields read off the constructor; induction on the number of steps, with no current and empty RC pairs as the invariant |

## 3. What is modelled and what is not

| source (`/repo/src`) | model | left out |
|----------------------|-------|----------|
| `types/Status.hpp` | `StatusModel.v` | the text of messages |
| `utility/interpolation.hpp`, `types/FixedData.hpp`, `types/XYdata.hpp`, `types/Histogram.hpp`, `utility/util.hpp` (grids) | `UtilModel.v` | iterator boilerplate |
| `utility/parallelisation.hpp`, `types/SmallVector.hpp`, `types/data_storage/*` (cells), `utility/free_functions.hpp`, `cells/Cell_SPM/param/DEG_ID.hpp`, `types/matrix.hpp` | `DataModel.v` | formatting of numbers by `operator<<`; failing file opens |
| `optimisation/MCMC.hpp`, `utility/slide_aux.hpp` (norm, gamma density) | `McmcModel.v` | random number generation; the file the records go to |
| `cooling/data_storage/*`, `storeData` of modules and batteries | `StoreModel.v` | file opening; rows of modules and batteries (switched off in the settings) |
| `cells/Cell.hpp`, `cells/Cell_ECM/*` | `CellModel.v` | data recording (in `DataModel.v`) |
| `cells/Cell_SPM/*` | `SpmModel.v`, `SpmUnitModel.v` | loading of the matrices (given as tables), reading OCV files (see `CsvModel.v`), `Cell_KokamNMC.hpp` (included, but cannot be linked: its constructor calls `validState(State_SPM&, State_SPM&)`, which is declared and never defined), `Cell_LGChemNMC.hpp` (not in the build) |
| `modules/*` | `ModuleModel.v`, ownership and copying in `ObjModel.v`, data rows in `StoreModel.v` | - |
| `cooling/CoolSystem*.cpp` | `CoolModel.v` | - (statistics storage: `StoreModel.v`) |
| `power_conversion/Converter.cpp`, `system/Battery.*` | `BattModel.v`, data rows in `StoreModel.v` | - |
| `procedures/Cycler.cpp` | `CyclerModel.v`, `PackModel.v` (on a tree), `FleetModel.v` (on a tree of mixed cells) | messages |
| `procedures/Procedure.cpp`, `procedure_util.hpp` | `ProcModel.v`, `ReportModel.v` (checkUp and checkMod files) | file names, digits of numbers, messages, histogram files |
| `examples/drive_cycles.hpp`, `examples/cell_tests.hpp` | `DriveModel.v` (the experiments of `drive_cycle_artemis`, the pulses of `GITT_test`), `PrepModel.v` (`init_cell_manual`, the recorded charge of `drive_cycle_artemis`) | the preparation of the cells with the cycler, `get_exampleCell`, number formats, messages |
| `benchmark/running_Cell_SPM.hpp`, `benchmark/running_LP_cases.hpp` | `PrepModel.v` (the log of `run_Cell_SPM_2`, the cycles of `run_LP_case_LargePackLong`) | the construction of the packs, the other benchmarks, which are single calls of the cycler |
| `procedures/determine_OCV.cpp` | `FitModel.v`, `DischModel.v` | files written |
| `utility/io/read_CSVfiles.hpp` | `CsvModel.v` | opening files, conversion of one numeral |
| `factories/makeBattery.cpp` | `FactModel.v` | the final voltage read, messages |

Not modelled at all: printing and logging, wall-clock timing (`timing.hpp`), file-system effects other than the contents written, memory
allocation failure, `paperCode.cpp`, `main.cpp` (drivers), `determine_characterisation.cpp` and `degradation.cpp` (they use classes that
no longer exist and are not in the build), MATLAB scripts. The compiler, the C++ library and the processor are outside the model: binary64
results assume round-to-nearest without extended precision, contraction (`-ffast-math` is not assumed) or reordering of sums.

## 4. Findings: where the code does not satisfy the property

Each line is a theorem about the model; witnesses with numbers are evaluated in binary64 unless the line says reals.

* `C79_unchecked_refuted` (P_Accept.v): Finding: thicknesses, diffusion constants, clock and throughput are stored unseen, also when negative.
* `C79_nan_refuted` (P_Accept.v): Finding: in doubles a state vector of nothing but not-a-number is accepted.
* `C44_documented_refuted` (P_Batt.v): The default converter, 1200 V, 50 A discharge: below 1.5 kW (in doubles).
* `C45_extremes_refuted` (P_Batt.v): [getVhigh] of a battery ("the voltage of the cell with the highest voltage", Battery.hpp:78) is a cell voltage multiplied by the number of groups in series; no cell has it.
* `C47_continuation_refuted` (P_Batt.v): ... followed by another value (310): the battery takes that for its temperature, and the span is not consumed.
* `C47_short_refuted` (P_Batt.v): With one value too few, the battery takes over the states of its cells and then reads the last element of an empty span.
* `C47_refusal_refuted` (P_Batt.v): States with an invalid charge are refused, but the battery's temperature is changed.
* `C11_tight_hard_limit_refuted` (P_Cell.v): Finding: with hard limits equal to the soft limits the margin hides a hard violation.
* `C11_nan_voltage_refuted` (P_Cell.v): Finding: in doubles a not-a-number voltage is reported as [Success].
* `C13_short_span_refuted` (P_Cell.v): Finding: a span shorter than the cell's states is not rejected: it is read beyond its end.
* `C15_long_step_refuted` (P_Cell.v): Finding: beyond twice the time constant the explicit step diverges: the distance to the current grows.
* `C16_rescaled_step_refuted` (P_Cell.v): Finding: in doubles one step of 2*dt is not two steps of dt (time 0.1+0.2 <> 0.3 style rounding), so step sizes cannot be exchanged bit for bit: here 3 x 0.1 s against 1 x 0.3 s.
* `C17_low_voltage_accepted_refuted` (P_Cell.v): Finding: an accepted voltage may violate the soft limits (a warning is returned, the current is kept) and a voltage outside the limits is accepted as [Success] when the resulting current is in the other direction.
* `C18_step_leaves_range_refuted` (P_Cell.v): Finding: a time step alone takes the state of charge outside [0,1] without any error.
* `C18_nan_soc_refuted` (P_Cell.v): Finding: not-a-number passes the range check; the cell then has SOC NaN and status [Success], and its voltage look-up is undefined (NaN cast to int).
* `C93_oscillates_refuted` (P_Conv.v): Finding: beyond that the loop need not settle. Two cells whose capacity times resistance is 2 (for the default resistance 1000 Ah) swap their voltages in every iteration; whatever their imbalance, redistribution fails.
* `C93_strings_refuted` (P_Conv.v): Finding: long strings in parallel are never balanced, as the resistance grows with the string and the capacity does not shrink. Two strings of 100 full default cells of 10 Ah, at any two different currents between 0 and 1000 A.
* `C42_switch_on_fraction_refuted` (P_Cool.v): Finding: the AC is switched on by the fan's gain. With the constructor's settings (AC gain 0.2 per kelvin above 20 degrees) at 21.5 degrees the AC's own fraction is 0.3, above the switch-on fraction 0.2, yet the AC is off.
* `C65_fast_fan_refuted` (P_CoolFan.v): Beyond that speed more flow convects less: at 100 m/s less than at 25 m/s, and the proportional fan's flow has no upper limit.
* `C63_matrix_mark_refuted` (P_Csv.v): A matrix file that starts with a byte order mark is not read: the first element becomes 0, the rest stays as it was.
* `C63_short_refuted` (P_Csv.v): A short file is accepted: the missing elements keep their old (for one column: indeterminate) values.
* `C63_wide_refuted` (P_Csv.v): A file with more columns than the matrix is misread.
* `C63_leading_blank_refuted` (P_Csv.v): White space before a matrix costs its first digit: newline, 15, 2.
* `C63_narrow_refuted` (P_Csv.v): One column read as two: every second number is taken for a comma.
* `C63_header_refuted` (P_Csv.v): A header line hides the whole file.
* `C63_cut_refuted` (P_Csv.v): A file cut within its last number is accepted: 1,25 becomes 1,2.
* `C63_ragged_refuted` (P_Csv.v): Lines of different lengths are accepted and regrouped: 1,2 / 3 / 4,5,6 has element 4 in line 1.
* `C63_empty_line_refuted` (P_Csv.v): An empty line at the end changes the shape of the matrix: 1,2 / 3,4 / (empty).
* `C63_empty_refuted` (P_Csv.v): Empty files: undefined for any number of columns, an endless loop for matrices; a file with only a byte order mark makes the two-column reader loop for ever.
* `C63_array_refuted` (P_Csv.v): Arrays as long as the file: with [n = 0] the reader goes on behind the last element.
* `C63_span_refuted` (P_Csv.v): Shared columns: a span longer than the file is undefined.
* `C49_last_step_refuted` (P_Cycler.v): The step that is simulated and not reported: charging at 16 A in diagnostic mode with the limit of 4.25 V above the cell's own 4.2 V. The cell has moved on 1 s; the report says 0 s, 0 Ah.
* `C50_charge_refuted` (P_Cycler.v): Charging at 10 A a cell that was being charged at 50 A (3.25 V): the 3.2 V limit is reported at once, with the cell at 3.17 V.
* `C50_safety_refuted` (P_Cycler.v): Discharging at 100 A with a limit of 1 V in non-diagnostic mode: the run goes on for its 2 s although the cell is at 1.90 V, below the safety limit of 2.0 V by more than the 1% tolerance.
* `C51_double_refuted` (P_Cycler.v): In doubles it does fail for lack of an end condition: seven steps of 0.2 s add up to less than 1.4 s.
* `C51_time_refuted` (P_Cycler.v): The reported time is not the elapsed time: 2 s are simulated and 0 s reported.
* `C51_setpoint_refuted` (P_Cycler.v): The unit need not be at the set point: a cell at 5 A discharge refuses the set voltage of 4.5 V each time, goes on discharging for 3 s, and the run reports its time limit.
* `C52_time_refuted` (P_Cycler.v): Charging at 160 A for at most 4 s in steps of 2 s, to 4.2 V: the first step passes 4.2 V by more than the tolerance, is not accounted, and the constant-voltage phase still runs for the full 4 s - 6 s in total, and 0 s reported.
* `C53_restore_refuted` (P_Cycler.v): A successful test leaves the unit changed: the cell went through 3 s at 374.4 A and is left carrying that current.
* `C54_two_cyclers_refuted` (P_Cycler.v): Two cyclers on one cell do not share their counts: after [nmax] data points stored by each, [2 nmax] wait in memory and nothing has been written.
* `C06_unknown_hardware_refuted` (P_Data.v): Finding: when the hardware concurrency is not computable (0), no task runs at all unless exactly one worker is requested.
* `C06_overflow_refuted` (P_Data.v): Finding: a range that ends at the largest [int] overflows the loop index.
* `C07_push_full_refuted` (P_Data.v): Finding: one more push than the capacity writes outside the storage, for every capacity and contents.
* `C07_interval_drops_last_refuted` (P_Data.v): Finding: iterating over an interval view of a container visits everything but the last element.
* `C09_batches_glued_refuted` (P_Data.v): Finding: with two or more non-empty batches the last number of one batch and the first of the next run together.
* `C09_cell_file_glued_refuted` (P_Data.v): Finding: in a cell's file the header of the second write continues the last row of the first.
* `C61_offdiagonal_refuted` (P_Data.v): Finding: with a non-zero entry below the diagonal the returned matrix is not a factor of the updated matrix.
* `C68_error_refuted` (P_Disch.v): The documented error (a lithium fraction outside of its curve) is never raised by the overload that the fit uses: the voltage is taken to be zero and the discharge "succeeds" (doubles).
* `C68_stale_refuted` (P_Disch.v): The voltage of a row is not that of its charge and fractions, but that of 5 s before: the last row of this discharge has most of the anode's lithium moved and still the voltage of the start.
* `C68_endless_refuted` (P_Disch.v): A capacity of zero, or one so small that a period does not change the doubles holding the fractions, never ends.
* `C87_current_refuted` (P_Drive.v): The current column of the voltage file is the requested current: when a command is refused, it is not the one that flowed, which the file with the states has (doubles).
* `C87_rest_refuted` (P_Drive.v): When a pulse empties an electrode, the command to rest is refused and the pulse current goes on through the rest; the voltage in the file is 0 (doubles; the cell was prepared with [setC]).
* `C91_overcharge_refuted` (P_Energy.v): Finding: charged past full, the cell books no energy (its voltage reads 0 outside the table), yet the way back counts: a closed cycle that yields energy. The default cell with no RC pair in doubles.
* `C69_announced_refuted` (P_Fact.v): [makeBattery_TestParallel] announces 72 cells and builds 3.
* `C69_degradation_spread_refuted` (P_Fact.v): With single-particle cells the degradation spread changes no cell: each is the one with degradation factors 1.
* `C59_nan_refuted` (P_Fit.v): Finding: not-a-numbers pass, as abscissa and as voltage.
* `C59_tolerance_refuted` (P_Fit.v): Finding: an accepted curve need not cover the range it is meant for; a query at 0 then fails.
* `C59_short_refuted` (P_Fit.v): Finding: an empty curve, and a curve of one point, are not rejected: reading them is undefined.
* `C60_even_refuted` (P_Fit.v): Finding: with an even number of points (the fit uses 100) the refined grid does not contain the point it refines, and the refined search can return a worse fit. In doubles.
* `C60_zero_material_refuted` (P_Fit.v): Finding: the amounts of active material are not kept physical: refining around the lowest amount can make it 0, and the division 0/0 then leads to an out-of-range read.
* `C60_no_level_refuted` (P_Fit.v): Finding: without any level the uninitialised result is returned.
* `C60_no_point_refuted` (P_Fit.v): Finding: so is the result of a search over an empty range of cathode amounts.
* `C60_ragged_refuted` (P_Fit.v): Finding: a measured curve with more voltages than charges is read out of range.
* `C77_exact_refuted` (P_Float.v): The drift is real: after three steps of a tenth of a second the cell's clock is past three tenths.
* `C84_knots_refuted` (P_FloatInt.v): ... but not exactly: with the points (0, 0), (3, 0.1) and (6, 0.1) the answer at 3 is the double after 0.1, which is also more than any ordinate of the table.
* `C84_rising_refuted` (P_FloatInt.v): ... but not exactly: in the same table the answer at 3 is above that at 4.
* `C89_exact_refuted` (P_FloatPack.v): The bounds are not zero: three cells of 0.1 Ah in parallel have more than 0.3 Ah; and the order matters.
* `C89_order_refuted` (P_FloatPack.v): The bounds are not zero: three cells of 0.1 Ah in parallel have more than 0.3 Ah; and the order matters.
* `C83_exact_refuted` (P_FloatSpm.v): The drift is real: after three steps of a tenth of a second at rest the cell's clock is past three tenths.
* `C70_zero_step_refuted` (P_Mcmc.v): A zero random vector turns the factor into NaN.
* `C70_nan_refuted` (P_Mcmc.v): In doubles it also accepts a parameter that is not a number.
* `C70_outputs_refuted` (P_Mcmc.v): With two or more outputs the record cannot be read: the index of the second noise level throws although it is below the announced size.
* `C70_norm_refuted` (P_Mcmc.v): The general norm of slide_aux is a norm only for even powers: with power 1 a non-zero vector has length zero.
* `C70_penalty_refuted` (P_Mcmc.v): Finding: its five numbers are zero, not the penalty that the prior computed; a caller that forgets the flag takes the rejected vector for one whose posterior density is 1.
* `C70_short_refuted` (P_Mcmc.v): Finding: nothing compares the lengths of the vectors. Fewer densities, or fewer scale factors, than parameters, and an input without noise level, are undefined behaviour.
* `C93_contact_refuted` (P_Mirror.v): Finding: the cells alone would balance (capacity times resistance at most 1), but with these contact resistances every iteration mirrors the deviations of the terminal voltages, and the redistribution fails however small they are.
* `C94_contact_refuted` (P_Mirror.v): Finding: the same for voltage commands, with contacts of a fraction of a milliohm.
* `C93_contact_refuted_inhabited` (P_Mirror.v): Three full default cells of 16 Ah that carry 398.3625 A, 6.275 A and 0.1 A; two that carry 31 A and 10 A.
* `C94_contact_refuted_inhabited` (P_Mirror.v): Three full default cells of 16 Ah that carry 398.3625 A, 6.275 A and 0.1 A; two that carry 31 A and 10 A.
* `C26_cell_count_refuted` (P_Module.v): Finding: children added to an inner module afterwards are not counted by the outer one.
* `C27_rejected_refuted` (P_Module.v): Finding: the first child keeps the rejected current (the restoring loop stops before index 0).
* `C29_refuted` (P_Module.v): Finding: when the second cell rejects its values, the first keeps the new ones.
* `C30_child_call_refuted` (P_Module.v): Finding: after a command to a child, the module still returns the stored voltage.
* `C30_throw_refuted` (P_Module.v): Finding: a time step that throws (a top-level module without an HVAC system, error 14) has stepped the cells but left the stored voltage marked valid.
* `C32_total_refuted` (P_Module.v): Finding: success is reported although the total is not the commanded one. One ampere of discharge is commanded; the module ends up charging with more than 15 A.
* `C32_voltages_refuted` (P_Module.v): Finding: success is reported although the branch voltages differ by more than 2 V: the cells rejected every correction (one full, one empty cell of 16 kAh at rest).
* `C32_restore_refuted` (P_Module.v): Finding: a failure is reported but the previous currents are not restored.
* `C34_parallel_refuted` (P_Module.v): Finding: in a parallel module of two branches of 1 A each, with two contact resistances of 1 Ohm, one second gives (2^2 + 3^2) J instead of (2^2 + 1^2) J: the running current is not reset.
* `C35_refuted` (P_Module.v): Finding: for two cells in series at 3.15 V (limits 2.7 V to 4.2 V) [getVhigh] returns 5.4 V, the module's lower limit.
* `C36_nested_refuted` (P_Module.v): Finding: a module inside a module inside the blocked module is not blocked.
* `C93_spm_oscillates_refuted` (P_Mono.v): Finding: the bound of 1 matters for physics-based cells too. Two cells whose capacity times resistance is 2 swap their voltages in every iteration; whatever their imbalance, redistribution fails.
* `C10_identifiers_refuted` (P_Obj.v): The identifiers of the copy's parts are not those of the copy: after renaming the copy, its cells still carry the name of the original; and once the original is gone, asking for them is undefined.
* `C62_message_refuted` (P_Obj.v): A foreign unit handed to a module that has itself no parent: the message dereferences a null pointer (the program prints critical errors by default, settings.hpp).
* `C62_copy_refuted` (P_Obj.v): Units of a copied module are not protected: their parent is the original, so the original may take them, and the copy is left with null pointers.
* `C62_own_units_refuted` (P_Obj.v): A module handed its own child vector destroys its units and then uses them.
* `C62_dead_refuted` (P_Obj.v): A unit that has been destroyed can be neither copied nor destroyed again: both are undefined, whatever else is alive.
* `C80_constant_voltage_refuted` (P_Pack.v): Not so for a constant voltage: on a string whose second cell is nearly empty the search for the current leaves the two cells in series at different currents, and after one second the cycler's throughput and the second cell's differ more than thirty-fold while the call reports that it completed.
* `C73_lost_refuted` (P_Phys.v): Finding: when the new temperature is outside the limits the model throws 9, but the pending heat and time are cleared all the same; the temperature stays as it was. A caller that catches the exception and goes on has lost that heat from the balance.
* `C88_unreported_refuted` (P_Prep.v): The caller's counters of charge, time and energy are zero whatever has been done.
* `C88_rest_refuted` (P_Prep.v): Prepared to rest at 3.15001 V, the cell is below that voltage: it was reached while charging.
* `C88_stuck_refuted` (P_Prep.v): The status of the command is not looked at: a cell that refuses the 5 A and rests at a higher voltage is stepped for ever.
* `C88_long_refuted` (P_Prep.v): The benchmark alternates charge and discharge of 20 minutes with rests of 15 and 30, but its charging limit is 2.7 V for ten cells in series: on any unit that always reads more than that, the charge takes no time, and a cycle planned for 85 minutes is over after 65 (over the reals).
* `C56_kinds_refuted` (P_Proc.v): Cells of any other type (Cell_ECM, and Cell_KokamNMC although it is a Cell_SPM) are left as they are, and so is any battery with everything in it; both are reported as balanced.
* `C56_status_refuted` (P_Proc.v): A balancing voltage that no cell can have, 9 V: nothing is charged, and the module is reported as balanced.
* `C57_zero_refuted` (P_Proc.v): A period of zero (no check-ups wanted, say) is undefined behaviour as soon as there is a cycle to do.
* `C58_sum_refuted` (P_Proc.v): Two cycles make four records: the sum of their charges is more than twice the charge that flowed.
* `C58_second_run_refuted` (P_Proc.v): The records of an earlier run in the same file (here one, with 7 Ah) are lost: the file is that of a run with a fresh file.
* `C67_state_refuted` (P_Proc.v): A check-up of a resting cell at 3.95 V (above the voltage it would be charged to): afterwards the cell is being charged at C/25. One at 3.8249 V has been charged.
* `C85_empty_refuted` (P_Report.v): Finding: a unit without cells is undefined behaviour.
* `C85_headings_refuted` (P_Report.v): Finding: the headings are not those of the columns. Two of them run into one, so the energy throughput stands under "Capacity" and the capacity under "States".
* `C85_film_refuted` (P_Report.v): Finding: with the five points per electrode of the program, ten states of every single-particle cell are left out if the first cell is one, and they are not the concentrations but current, voltage, temperature, thickness of the film, lost lithium, thicknesses and volume fractions of the electrodes and the cathode's specific surface.
* `C85_mixed_refuted` (P_Report.v): Finding: the states of the other cells are cut at the same place, so an equivalent-circuit cell behind a single-particle cell has none (it has seven with one parallel resistance).
* `C85_states_refuted` (P_Report.v): Finding: the states in the line are those after the capacity test, not those at the check-up: this cell, never used before, has the clock 0 in column 7 and 3 s among its states (column 15), and 374 A where it carried no current.
* `C85_no_cooling_refuted` (P_Report.v): Finding: a module or battery without cooling system is undefined behaviour.
* `C75_nan_refuted` (P_Safe.v): A state of charge that is not a number passes the check of [setSOC]; the voltage check then reads outside the table.
* `C75_restore_refuted` (P_Safe.v): Rejected states of a module of cells with zero and two RC elements are restored from a vector that is too short, although the caller has passed as many values as the module has states.
* `C75_contact_refuted` (P_Safe.v): [setRcontact] accepts fewer resistances than there are children; reading the voltage then leaves the array.
* `C75_threads_refuted` (P_Safe.v): With worker threads, the exception of a cell (here an unknown degradation model) terminates the program; with one thread it reaches the caller.
* `C75_many_refuted` (P_Safe.v): A module accepts more children than the fixed-size buffers of its algorithms hold: a parallel module then writes outside them when its current or voltage is set, and so does the series module whose cells accept the current.
* `C75_no_module_refuted` (P_Safe.v): A battery without a module dereferences a null pointer in every call but those of its losses: queries, commands, steps and the capacity, limits, number of cells and hottest temperature.
* `C81_warning_refuted` (P_Scale.v): The hypothesis that the cell accepts the current cannot be dropped: modules pass on only failures, not warnings. A single cell below its minimum voltage refuses to be discharged, and a string of two such cells is discharged.
* `C19_setStates_exception_refuted` (P_Spm.v): Finding: the exception for negative lost lithium leaves the offending states installed.
* `C19_nan_current_refuted` (P_Spm.v): Finding: in doubles setting a not-a-number current, on the default cell at its reference temperature, is undefined behaviour (the OCV tables are indexed with a not-a-number).
* `C19_setVoltage_refuted` (P_Spm.v): Finding: asking for a voltage the cell cannot reach divides by the difference of two equal voltages, and the resulting not-a-number current is undefined behaviour rather than a failure report.
* `C20_setT_refuted` (P_Spm.v): Finding: a temperature change keeps the stored voltage. For every resting cell with an entropic coefficient the voltage read after it is wrong.
* `C20_characterisation_refuted` (P_Spm.v): Finding: changing characterisation parameters, OCV curves, or a time step that degrades the electrodes keeps the voltage computed before. In doubles, on the cell above under 1 A: the voltage read and the voltage of the states.
* `C20_curves_refuted` (P_Spm.v): Finding: changing characterisation parameters, OCV curves, or a time step that degrades the electrodes keeps the voltage computed before. In doubles, on the cell above under 1 A: the voltage read and the voltage of the states.
* `C20_degradation_refuted` (P_Spm.v): The same cell with loss of active material by model 4.
* `C22_long_step_refuted` (P_Spm.v): Finding: a longer step makes the concentration profile of a resting cell diverge (explicit integration; the step length is not checked).
* `C23_negative_steps_refuted` (P_Spm.v): Finding: a negative number of steps un-ages the cell. No step is made, but the degradation of the negative duration is applied: crack surface falls. (Cell with crack growth model 4 under 1 A.)
* `C23_zero_step_refuted` (P_Spm.v): Finding: a step of zero length with crack growth model 1 makes the crack surface not a number.
* `C24_lam4_refuted` (P_Spm.v): Finding: active-material loss model 4 lowers the volume fractions but not the surfaces; after one step of 10000 s at 0.1 A (in doubles) the cell rejects its own state vector.
* `C24_short_refuted` (P_Spm.v): Finding: a vector that is too short is not reported but read beyond its end.
* `C25_degradation_factors_refuted` (P_Spm.v): Finding: the degradation factors have no effect at all: the constructed cells are equal.
* `C25_readback_refuted` (P_Spm.v): Finding: [getVariations] answers 1, 1, 1, 1 whatever factors the cell was built with.
* `C01_isLimitsReached_all_ends_refuted` (P_Status.v): Finding: [isLimitsReached] misses one of the procedure ends, the time limit.
* `C01_every_status_has_message_refuted` (P_Status.v): Finding: the two safety violations have no message.
* `C71_written_energy_refuted` (P_Store.v): The energy in the statistics file is not the total operating energy: written right after a stored point it is zero, whatever the fans have used.
* `C71_series_refuted` (P_Store.v): Time series: the counters are not reset, so every row gives the mean since the first exchange and not that of the past period.
* `C71_hvac_refuted` (P_Store.v): The AC unit of an HVAC never records anything, at any storage level.
* `C02_nan_query_refuted` (P_Util.v): Finding: a NaN query passes the bound checks and reads before the start of the table (undefined behaviour), with the search as with the shortcut.
* `C03_shortcut_differs_refuted` (P_Util.v): Finding: a table accepted as uniform (each step within 1% of the first) for which the shortcut selects the wrong interval: the result differs from the table's piecewise-linear value.
* `C03_shortcut_out_of_range_refuted` (P_Util.v): Finding: the drift accumulates with the table length; on this 202-point table, accepted as uniform, a query inside the range reads beyond the end of the table.
* `C03_decimal_refuted` (P_Util.v): Finding: rounding alone does it, on an ordinary table: 0.2, 0.3, 0.4, queried at the double before 0.4. The step 0.3 - 0.2 is rounded down, so the query is two whole steps from the start and the point behind the last one is read.
* `C04_forms_agree_double_refuted` (P_Util.v): Finding: in doubles the two forms do not hit the same points: the compact form misses x2.
* `C05_default_histogram_refuted` (P_Util.v): Findings: undefined behaviour for a default-constructed histogram, for a NaN sample and for a finite sample far out of range; and in doubles a sample below an edge can be counted above it, and the last edge can be missing from the reported edges.
* `C05_nan_or_far_sample_refuted` (P_Util.v): Findings: undefined behaviour for a default-constructed histogram, for a NaN sample and for a finite sample far out of range; and in doubles a sample below an edge can be counted above it, and the last edge can be missing from the reported edges.
* `C05_double_edge_misbinned_refuted` (P_Util.v): Findings: undefined behaviour for a default-constructed histogram, for a NaN sample and for a finite sample far out of range; and in doubles a sample below an edge can be counted above it, and the last edge can be missing from the reported edges.
* `C05_double_edge_missing_refuted` (P_Util.v): Findings: undefined behaviour for a default-constructed histogram, for a NaN sample and for a finite sample far out of range; and in doubles a sample below an edge can be counted above it, and the last edge can be missing from the reported edges.
* `C94_mirror_refuted` (P_Volt.v): Finding: with 10 milliohm per cell every correction mirrors the voltage at the target, and the command fails whatever the distance, also for a single cell.
* `C94_strings_refuted` (P_Volt.v): Finding: strings of 10 milliohm, such as five default cells without contact resistance, mirror at the target.
* `C94_strings_refuted_inhabited` (P_Volt.v): Two strings of two cells in parallel settle; two strings of five do not.
* `C94_trial_refuted` (P_Volt.v): Finding, in double precision: a trial current that a cell refuses destroys the state. One full cell of 160 Ah in series mode carries 1 A at 4.298 V; 4.2999 V is within reach, at 0.05 A. The trial current of -0.6 A would exceed the upper limit and is refused, the slope becomes a division by zero, and the command ends with failure and a module whose current and voltage are not numbers.

Findings visible in the model without a theorem of their own:

* An exception thrown inside a worker thread of `run` ends the program (`std::terminate`); the model's `run` theorems assume tasks that return.
* The ECM cell's thermal update returns its temperature and exchanges no heat, so a module of ECM cells only cools itself.
* The converter's rating is not rescaled when `setSeriesandParallel` is called after `setModule`.
* The pack factories' comments say 20s6p for the EPFL modules; the code has 7 cells in parallel.

## 5. Trusted base

* Coq 8.16.1's kernel, including the `vm_compute` conversion for the binary64 witnesses (re-checked by `coqchk` without the VM).
* The standard library, `SpecFloat` included. No other library is used in the statements; no axiom, plugin, functor, module type,
  `Admitted` or disabled check occurs.
* The correspondence between the C++ text and the model files: read by hand, function by function, with the cited lines; section 3 lists
  what is left out.
* The statements: the property files with the specification files they import.

The double-precision results (C77) use lemmas of Flocq 4 about rounding. Its operations on binary64 numbers are proved equal to the ones of the
model (`SpecFloat` of the standard library) in `FloatFacts.v`; no axiom of Flocq is used, and `Print Assumptions` lists only those of the real numbers.

### What `Print Assumptions` lists

Every property file prints the assumptions of each of its theorems. There are four classes:

* **0**: "Closed under the global context".
* **R**: the axioms of the standard library's real numbers, `ClassicalDedekindReals.sig_forall_dec`, `ClassicalDedekindReals.sig_not_dec` and `FunctionalExtensionality.functional_extensionality_dep`.
* **r**: `ClassicalDedekindReals.sig_forall_dec` and `FunctionalExtensionality.functional_extensionality_dep`.
* **C**: those of **R** and `Classical_Prop.classic`, which the standard library uses for the derivative of `exp` and for `ln`, `Rpower` and `arcsinh`. Only statements that apply these functions to a worked case need it.

No other axiom occurs.

| id | theorems (class) |
|----|------------------|
| C01 | `C01_status_eq_names` (0), `C01_partition` (0), `C01_limit_predicates` (0), `C01_isLimitsReached_all_ends_refuted` (0), `C01_every_status_has_message_refuted` (0), `C01_worst_status` (0), `C01_worst_status_ex` (0) |
| C02 | `C02_interpolation_value` (R), `C02_interpolation_knots` (R), `C02_interpolation_bounded` (R), `C02_interpolation_monotone` (R), `C02_outside_rejected` (0), `C02_outside_clamped` (R), `C02_interior_no_out_of_range_read` (0), `C02_nan_query_refuted` (0), `C02_table_ex` (R) |
| C03 | `C03_shortcut_equals_search_partial` (R), `C03_shortcut_differs_refuted` (0), `C03_shortcut_out_of_range_refuted` (0), `C03_decimal_refuted` (0), `C03_accepted_tables` (R), `C03_accepted_ex` (R), `C03_uniform_ex` (r) |
| C04 | `C04_linspace_length` (0), `C04_linspace_values` (R), `C04_linspace_ends` (R), `C04_linspace_forms_agree` (R), `C04_prev_next` (R), `C04_forms_agree_double_refuted` (0) |
| C05 | `C05_histogram_conserves` (0), `C05_histogram_bins` (R), `C05_histogram_order_irrelevant` (R), `C05_default_histogram_refuted` (R), `C05_nan_or_far_sample_refuted` (0), `C05_double_edge_misbinned_refuted` (0), `C05_double_edge_missing_refuted` (0), `C05_edges` (R), `C05_ex` (r) |
| C06 | `C06_each_index_once` (0), `C06_same_state_as_serial` (0), `C06_inhabited` (0), `C06_unknown_hardware_refuted` (0), `C06_overflow_refuted` (0) |
| C07 | `C07_push_and_get_partial` (0), `C07_inhabited` (0), `C07_push_full_refuted` (0), `C07_interval_drops_last_refuted` (0) |
| C08 | `C08_restore` (0), `C08_last_added_wins` (0), `C08_inhabited` (0) |
| C09 | `C09_one_batch_rows_partial` (0), `C09_samples_in_order` (0), `C09_buffer_emptied` (0), `C09_inhabited` (0), `C09_batches_glued_refuted` (0), `C09_cell_file_glued_refuted` (0) |
| C10 | `C10_independent_partial` (0), `C10_same_behaviour` (0), `C10_inhabited` (0), `C10_identifiers_refuted` (0) |
| C11 | `C11_decision_table` (R), `C11_reported_voltage` (0), `C11_tight_hard_limit_refuted` (R), `C11_nan_voltage_refuted` (0), `C11_default_limits` (R) |
| C12 | `C12_setCurrent_atomic` (0), `C12_setCurrent_status` (0), `C12_setVoltage_atomic` (0), `C12_setVoltage_throw_atomic` (0), `C12_setSOC_atomic` (0), `C12_setSOC_status` (0), `C12_setStates_atomic` (0), `C12_setCurrent_returns` (R), `C12_both_outcomes` (0), `C12_default_cell_good` (R) |
| C13 | `C13_roundtrip` (0), `C13_invalid_rejected` (0), `C13_short_span_refuted` (0), `C13_valid_range` (R), `C13_default_valid` (0) |
| C14 | `C14_accounting` (R), `C14_steps_return` (R), `C14_some_history` (R), `C14_pack` (R), `C14_pack_times` (R) |
| C15 | `C15_relaxation` (R), `C15_bounded` (R), `C15_default_step` (R), `C15_long_step_refuted` (R), `C15_pack` (R) |
| C16 | `C16_compose` (0), `C16_zero_and_negative` (0), `C16_step_frame` (0), `C16_rescaled_step_refuted` (0) |
| C17 | `C17_delivers` (R), `C17_accepted` (0), `C17_low_voltage_accepted_refuted` (0) |
| C18 | `C18_commands_keep_soc_partial` (R), `C18_leaving_is_detected` (0), `C18_step_leaves_range_refuted` (0), `C18_nan_soc_refuted` (0), `C18_some_commands` (R) |
| C19 | `C19_setCurrent_rejected` (0), `C19_setCurrent_accepted` (0), `C19_setSOC_rejected` (0), `C19_setStates_rejected` (0), `C19_exceptions` (0), `C19_setVoltage_success` (0), `C19_setStates_exception_refuted` (0), `C19_nan_current_refuted` (0), `C19_setVoltage_refuted` (0), `C19_inhabited` (0) |
| C20 | `C20_fresh_partial` (0), `C20_fresh_nodeg_partial` (R), `C20_constructed` (0), `C20_setT_refuted` (R), `C20_characterisation_refuted` (0), `C20_curves_refuted` (0), `C20_degradation_refuted` (0), `C20_inhabited` (0) |
| C21 | `C21_accounting` (R), `C21_never_decrease` (R), `C21_inhabited` (R), `C21_step_completes` (0) |
| C22 | `C22_superposition` (R), `C22_flux_balance` (R), `C22_inventory` (R), `C22_rest` (R), `C22_relaxation` (R), `C22_long_step_refuted` (R), `C22_inhabited` (0) |
| C23 | `C23_no_model` (R), `C23_monotone_partial` (R), `C23_default_rates` (R), `C23_negative_steps_refuted` (0), `C23_zero_step_refuted` (0), `C23_inhabited` (0) |
| C24 | `C24_layout` (0), `C24_round` (0), `C24_round_checked` (0), `C24_round_aged_partial` (R), `C24_lam4_refuted` (0), `C24_short_refuted` (0), `C24_inhabited` (0) |
| C25 | `C25_factors_partial` (0), `C25_capacity_partial` (R), `C25_resistance_partial` (R), `C25_degradation_factors_refuted` (0), `C25_readback_refuted` (0), `C25_inhabited` (0) |
| C26 | `C26_capacity` (R), `C26_voltage_limits` (R), `C26_current` (R), `C26_open_circuit_voltage` (R), `C26_voltage` (R), `C26_resistance` (R), `C26_cell_count_partial` (R), `C26_cell_count_refuted` (0), `C26_inhabited` (R) |
| C27 | `C27_accepted` (0), `C27_rejected_partial` (0), `C27_rejected_refuted` (0), `C27_inhabited` (0) |
| C28 | `C28_roundtrip` (0), `C28_inhabited` (0) |
| C29 | `C29_refuted` (0), `C29_flat_partial` (0), `C29_tree_partial` (0), `C29_tree_inhabited` (0) |
| C30 | `C30_unit_history_partial` (R), `C30_module_history_partial` (R), `C30_child_call_refuted` (0), `C30_throw_refuted` (0), `C30_inhabited` (R) |
| C31 | `C31_ladder` (R), `C31_terminal` (R), `C31_inhabited` (R) |
| C32 | `C32_redistribute_partial` (R), `C32_time_step_partial` (R), `C32_setVoltage_partial` (R), `C32_one_branch_partial` (R), `C32_inhabited` (R), `C32_total_refuted` (0), `C32_voltages_refuted` (R), `C32_restore_refuted` (0) |
| C33 | `C33_every_cell_steps` (0), `C33_same_time` (R), `C33_any_schedule` (0), `C33_inhabited` (0) |
| C34 | `C34_parallel_step_partial` (R), `C34_parallel_inhabited` (r), `C34_series_history_partial` (R), `C34_parallel_refuted` (R), `C34_inhabited` (R) |
| C35 | `C35_extremes_partial` (R), `C35_refuted` (0), `C35_inhabited` (0) |
| C36 | `C36_battery_partial` (0), `C36_direct_children_partial` (0), `C36_nested_refuted` (0) |
| C37 | `C37_worst_status` (0), `C37_success_iff` (0), `C37_voltage` (R), `C37_inhabited` (0) |
| C38 | `C38_path` (0), `C38_unique` (0), `C38_inhabited` (0), `C38_separator_needed` (0) |
| C39 | `C39_temperature_in_range` (0), `C39_command` (0), `C39_inhabited` (R) |
| C40 | `C40_hysteresis` (R), `C40_proportional` (R), `C40_inhabited` (R), `C40_open_as_made` (0), `C40_open_has_no_flow` (0) |
| C41 | `C41_battery` (R), `C41_books_balance` (R), `C41_query` (R), `C41_inhabited` (0) |
| C42 | `C42_power_bounded` (R), `C42_proportional_partial` (R), `C42_onoff` (R), `C42_inhabited` (R), `C42_switch_on_fraction_refuted` (R) |
| C43 | `C43_battery` (R), `C43_coolant_balance` (R), `C43_children_only` (R), `C43_tree` (R), `C43_isolated` (R), `C43_tree_inhabited` (R) |
| C44 | `C44_positive` (R), `C44_documented_partial` (R), `C44_documented_refuted` (0), `C44_law` (R), `C44_as_made` (R), `C44_inhabited` (R), `C44_conduction` (R) |
| C45 | `C45_scaling` (R), `C45_power` (R), `C45_command` (R), `C45_readback_partial` (R), `C45_inhabited` (R), `C45_extremes_refuted` (0), `C45_checked` (R), `C45_construction` (R), `C45_construction_inhabited` (0) |
| C46 | `C46_books` (R), `C46_once` (0), `C46_inhabited` (0) |
| C47 | `C47_roundtrip_partial` (0), `C47_inhabited` (0), `C47_continuation_refuted` (0), `C47_short_refuted` (0), `C47_refusal_refuted` (0) |
| C48 | `C48_observer` (0), `C48_rest` (R), `C48_rest_any` (0), `C48_inhabited` (r) |
| C49 | `C49_time` (R), `C49_books_partial` (R), `C49_last_step_refuted` (0), `C49_inhabited` (R) |
| C50 | `C50_reached_partial` (R), `C50_inside` (R), `C50_charge_refuted` (0), `C50_safety_refuted` (0), `C50_inhabited` (0), `C50_past` (0), `C50_past_inhabited` (0) |
| C51 | `C51_ends_partial` (R), `C51_double_refuted` (0), `C51_time_refuted` (0), `C51_time_never` (R), `C51_setpoint_refuted` (0), `C51_inhabited` (r) |
| C52 | `C52_sum_partial` (R), `C52_duration_partial` (R), `C52_time_refuted` (0), `C52_inhabited` (0) |
| C53 | `C53_capacity_partial` (R), `C53_restore_refuted` (0), `C53_inhabited` (0) |
| C54 | `C54_bound` (0), `C54_lossless` (0), `C54_two_cyclers_refuted` (0), `C54_inhabited` (0) |
| C55 | `C55_visit` (0), `C55_inhabited` (0) |
| C56 | `C56_all_partial` (0), `C56_kinds_refuted` (0), `C56_status_refuted` (0), `C56_inhabited` (0) |
| C57 | `C57_cycles` (0), `C57_returns` (0), `C57_zero_refuted` (0), `C57_inhabited` (0) |
| C58 | `C58_complete_partial` (R), `C58_sum_refuted` (0), `C58_second_run_refuted` (0) |
| C59 | `C59_accepted_iff_partial` (R), `C59_complete` (R), `C59_interpolation` (R), `C59_doubles` (0), `C59_nan_refuted` (0), `C59_tolerance_refuted` (R), `C59_short_refuted` (0), `C59_inhabited` (R) |
| C60 | `C60_scan_doubles` (0), `C60_level` (R), `C60_refined_partial` (R), `C60_bounds` (R), `C60_cost_value_partial` (R), `C60_even_refuted` (0), `C60_zero_material_refuted` (0), `C60_no_level_refuted` (0), `C60_no_point_refuted` (0), `C60_error` (R), `C60_ragged_refuted` (0), `C60_error_inhabited` (r), `C60_inhabited` (R) |
| C61 | `C61_update_diagonal_partial` (R), `C61_inhabited` (r), `C61_offdiagonal_refuted` (R) |
| C62 | `C62_taken` (0), `C62_refused` (0), `C62_decides_partial` (0), `C62_one_owner` (0), `C62_inhabited` (0), `C62_decides_inhabited` (0), `C62_message_refuted` (0), `C62_copy_refuted` (0), `C62_own_units_refuted` (0), `C62_dead_refuted` (0), `C62_dead_inhabited` (0) |
| C63 | `C63_two_columns` (0), `C63_matrix` (0), `C63_one_column` (0), `C63_any_columns` (0), `C63_missing_file` (0), `C63_shared_stable` (0), `C63_matrix_mark_refuted` (0), `C63_short_refuted` (0), `C63_wide_refuted` (0), `C63_leading_blank_refuted` (0), `C63_narrow_refuted` (0), `C63_header_refuted` (0), `C63_cut_refuted` (0), `C63_ragged_refuted` (0), `C63_empty_line_refuted` (0), `C63_empty_refuted` (0), `C63_array_refuted` (0), `C63_span_refuted` (0), `C63_inhabited` (0) |
| C64 | `C64_identifier_unique` (0), `C64_zero_never_stored` (0), `C64_inhabited` (0) |
| C65 | `C65_fan_energy` (R), `C65_hvac_energy` (R), `C65_fan_monotone` (r), `C65_convection` (R), `C65_fast_fan_refuted` (R), `C65_inhabited` (R) |
| C66 | `C66_days` (0), `C66_rest` (0), `C66_inhabited` (0) |
| C67 | `C67_books_partial` (R), `C67_data_written` (R), `C67_state_refuted` (0) |
| C68 | `C68_exact` (R), `C68_ends` (R), `C68_terminates` (R), `C68_lithium` (R), `C68_overloads` (R), `C68_refuses` (R), `C68_error_refuted` (0), `C68_stale_refuted` (0), `C68_endless_refuted` (0), `C68_inhabited` (R), `C68_thickness` (R) |
| C69 | `C69_layout` (0), `C69_carriers` (R), `C69_factories` (0), `C69_no_spread` (0), `C69_names` (0), `C69_sizes` (R), `C69_resistance` (R), `C69_ocv` (R), `C69_spm` (R), `C69_announced_refuted` (0), `C69_degradation_spread_refuted` (0), `C69_inhabited` (R) |
| C70 | `C70_update` (R), `C70_direction` (R), `C70_adaptation` (R), `C70_zero_step_refuted` (0), `C70_prior` (R), `C70_nan_refuted` (0), `C70_posterior` (C), `C70_record` (0), `C70_outputs_refuted` (0), `C70_gamma` (C), `C70_norm_refuted` (R), `C70_powers` (0), `C70_rejected` (0), `C70_penalty_refuted` (0), `C70_short_refuted` (0), `C70_short_inhabited` (0), `C70_inhabited` (C) |
| C71 | `C71_periods` (R), `C71_frame` (0), `C71_written_energy_refuted` (R), `C71_series_refuted` (R), `C71_hvac_refuted` (0), `C71_hvac_sample` (0), `C71_rows` (0), `C71_tree` (0), `C71_factories` (0), `C71_inhabited` (R) |
| C72 | `C72_polarisation` (R), `C72_resistance` (R), `C72_range` (R), `C72_uniform` (R), `C72_surface_node` (R), `C72_inhabited` (C) |
| C73 | `C73_generated` (R), `C73_only_steps` (R), `C73_balance` (R), `C73_between` (R), `C73_pairwise` (r), `C73_single` (R), `C73_lost_refuted` (R), `C73_off` (R), `C73_inhabited` (C) |
| C74 | `C74_sum_SEI` (R), `C74_sum_CS` (R), `C74_sum_LAM` (R), `C74_order` (R), `C74_lithium` (R), `C74_frame` (R), `C74_known` (R), `C74_crack` (R), `C74_diffusion` (R), `C74_inhabited` (C) |
| C75 | `C75_ecm_units` (R), `C75_spm_units` (R), `C75_voltage_returns` (R), `C75_parallel_setVoltage` (R), `C75_batteries` (R), `C75_inhabited` (R), `C75_nan_refuted` (0), `C75_restore_refuted` (0), `C75_contact_refuted` (0), `C75_threads_refuted` (0), `C75_many_refuted` (0), `C75_no_module_refuted` (0), `C75_no_module_inhabited` (R) |
| C76 | `C76_time_temperature` (C), `C76_rest_voltage` (R), `C76_kinetics` (R), `C76_film` (R), `C76_plating` (R), `C76_LAM` (R), `C76_inhabited` (C) |
| C77 | `C77_never_decrease` (C), `C77_books` (C), `C77_rest` (C), `C77_CC` (C), `C77_exact_refuted` (0), `C77_inhabited` (C) |
| C78 | `C78_thickness` (R), `C78_surface` (R), `C78_volume` (R), `C78_cracks` (R), `C78_decay` (R), `C78_inhabited` (C) |
| C79 | `C79_accepted` (R), `C79_checked` (R), `C79_unchecked_refuted` (R), `C79_nan_refuted` (0), `C79_inhabited` (C) |
| C80 | `C80_rest` (R), `C80_constant_current` (R), `C80_history` (R), `C80_round_trip` (R), `C80_constant_voltage_refuted` (0), `C80_checked_voltage` (0), `C80_inhabited` (R) |
| C81 | `C81_terminals` (R), `C81_check` (R), `C81_set_current` (R), `C81_step` (R), `C81_constant_current` (R), `C81_rest` (R), `C81_recording` (R), `C81_inhabited` (R), `C81_warning_refuted` (0) |
| C82 | `C82_ratings` (R), `C82_limits` (R), `C82_command` (R), `C82_step` (R), `C82_check` (R), `C82_extremes_partial` (R), `C82_voltage` (R), `C82_rest` (R), `C82_constant_current` (R), `C82_history` (R), `C82_checked_voltage` (0), `C82_inhabited` (R), `C82_completes` (0) |
| C83 | `C83_never_decrease` (C), `C83_energy` (C), `C83_books` (C), `C83_exact_refuted` (0), `C83_inhabited` (C) |
| C84 | `C84_value` (C), `C84_knots` (C), `C84_knots_refuted` (C), `C84_bounded` (C), `C84_monotone` (C), `C84_rising` (C), `C84_rising_refuted` (C), `C84_inhabited` (C) |
| C85 | `C85_report` (0), `C85_exception` (0), `C85_empty_refuted` (0), `C85_headings_refuted` (0), `C85_variations` (0), `C85_film_refuted` (0), `C85_mixed_refuted` (0), `C85_states_refuted` (0), `C85_modules` (0), `C85_no_cooling_refuted` (0), `C85_inhabited` (0) |
| C86 | `C86_CC` (C), `C86_CV` (C), `C86_inhabited` (C) |
| C87 | `C87_recorded` (R), `C87_voltage` (0), `C87_coulomb` (R), `C87_repeatable` (0), `C87_columns` (0), `C87_separate` (0), `C87_times` (C), `C87_pulses` (R), `C87_capacity` (R), `C87_current_refuted` (0), `C87_rest_refuted` (0), `C87_drive_inhabited` (R), `C87_repeat_inhabited` (0), `C87_gitt_inhabited` (R) |
| C88 | `C88_prepared` (0), `C88_prepared_small` (0), `C88_current` (R), `C88_unreported_refuted` (0), `C88_prepared_inhabited` (0), `C88_rest_refuted` (0), `C88_stuck_refuted` (R), `C88_cached` (0), `C88_resolved` (0), `C88_resolved_R` (R), `C88_resolved_inhabited` (0), `C88_log` (R), `C88_log_line` (0), `C88_log_double` (C), `C88_log_inhabited` (0), `C88_long_refuted` (R), `C88_long_inhabited` (R) |
| C89 | `C89_any_order` (C), `C89_model_order` (0), `C89_capacity` (C), `C89_limits` (C), `C89_current` (C), `C89_series_voltage` (C), `C89_exact_refuted` (0), `C89_order_refuted` (0), `C89_inhabited` (C), `C89_voltage_inhabited` (C) |
| C90 | `C90_film` (R), `C90_cathode` (R), `C90_cracks` (R), `C90_protects` (R), `C90_inhabited` (C) |
| C91 | `C91_passive` (R), `C91_round_trip` (R), `C91_tables` (R), `C91_default_passive` (R), `C91_inhabited` (R), `C91_overcharge_refuted` (0), `C91_pack` (R), `C91_pack_round_trip` (R), `C91_pack_inhabited` (R) |
| C92 | `C92_equation` (R), `C92_pairs` (C), `C92_voltage` (C), `C92_converges` (C), `C92_inhabited` (R), `C92_anode` (C), `C92_cathode` (C), `C92_modes_inhabited` (C), `C92_pack_cells` (R), `C92_pack_pairs` (C), `C92_pack_voltage` (C), `C92_pack_inhabited` (R) |
| C93 | `C93_redistribute` (R), `C93_setCurrent` (R), `C93_split` (R), `C93_default` (R), `C93_timeStep` (R), `C93_inhabited` (R), `C93_oscillates_refuted` (R), `C93_oscillates_inhabited` (R), `C93_strings_refuted` (R), `C93_strings_inhabited` (R), `C93_strings` (R), `C93_strings_setCurrent` (R), `C93_strings_balance_inhabited` (R), `C93_contact` (R), `C93_contact_setCurrent` (R), `C93_contact_timeStep` (R), `C93_contact_split` (R), `C93_contact_inhabited` (R), `C93_contact_setCurrent_inhabited` (R), `C93_contact_split_inhabited` (R), `C93_strings_contact` (R), `C93_strings_contact_inhabited` (R), `C93_contact_refuted` (R), `C93_contact_refuted_inhabited` (R), `C93_mixed` (R), `C93_mixed_setCurrent` (R), `C93_mixed_timeStep` (R), `C93_mixed_inhabited` (C), `C93_mixed_setCurrent_inhabited` (C), `C93_spm` (R), `C93_spm_setCurrent` (R), `C93_spm_split` (R), `C93_spm_timeStep` (R), `C93_spm_oscillates_refuted` (R), `C93_spm_oscillates_inhabited` (R), `C93_spm_inhabited` (R), `C93_spm_split_inhabited` (R), `C93_spm_real_inhabited` (C) |
| C94 | `C94_contact` (R), `C94_contact_inhabited` (R), `C94_strings_contact` (R), `C94_strings_contact_inhabited` (R), `C94_contact_refuted` (R), `C94_contact_refuted_inhabited` (R), `C94_mixed` (R), `C94_mixed_inhabited` (R), `C94_spm` (R), `C94_spm_cell` (R), `C94_spm_cell_inhabited` (C), `C94_spm_inhabited` (R), `C94_parallel` (R), `C94_mirror_refuted` (R), `C94_series` (R), `C94_strings` (R), `C94_strings_refuted` (R), `C94_parallel_inhabited` (R), `C94_mirror_inhabited` (R), `C94_series_inhabited` (R), `C94_strings_inhabited` (R), `C94_strings_refuted_inhabited` (R), `C94_trial_refuted` (0) |
| C95 | `C95_accepts` (R), `C95_new` (R), `C95_rest` (R), `C95_inhabited` (R) |
