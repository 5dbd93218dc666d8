{"id": "C01", "title": "Status classification is a total, exclusive partition", "statement": "For every Status value exactly one of isStatusOK / isStatusBad holds; isStatusWarning is OK-and-not-Success; a status that is a procedure's normal end (limit reached) is never bad; isCCLimitReached / isCVLimitReached / isLimitsReached classify exactly the documented end conditions; combining statuses with 'worst wins' is OK exactly when every component is OK.", "quantifier": "every Status value, and every list of statuses of any length", "why_tests_cant": "the combination law ranges over lists of arbitrary length; tests sample a few statuses", "anchors": ["src/types/Status.hpp: Status, isStatusOK, isStatusBad, isStatusWarning, isLimitsReached, isCCLimitReached, isCVLimitReached", "src/modules/Module.cpp: Module::checkVoltage"]}
{"id": "C02", "title": "Linear interpolation returns the piecewise-linear function of the table", "statement": "For every table with strictly increasing abscissae and every query inside the table's range, interpolation returns the value of the piecewise-linear function through the points: exact at the knots, on the chord and so between the neighbouring ordinates in between; a query outside the range is rejected when bounds are enforced and clamped to the end ordinate otherwise; no read falls outside the table.", "quantifier": "all table sizes >= 2, all strictly increasing abscissae, all ordinates, all queries", "why_tests_cant": "tables and queries are unbounded real data; unit tests interpolate a handful of points", "anchors": ["src/utility/interpolation.hpp: linInt_noexcept, linInt", "src/types/XYdata.hpp: XYdata::interp"]}
{"id": "C03", "title": "The fixed-step shortcut of interpolation is only a shortcut", "statement": "Whenever a table is accepted as uniformly spaced, interpolating with the constant-step index shortcut gives the same value as searching the table.", "quantifier": "all tables accepted by the uniform-spacing check, all queries in range", "why_tests_cant": "the acceptance test is tolerance based and errors accumulate with the table length, which a test with a short table never shows", "anchors": ["src/types/XYdata.hpp: check_is_fixed", "src/utility/interpolation.hpp: linInt_noexcept"]}
{"id": "C04", "title": "Generated grids hit their end points, have the requested length and are evenly spaced", "statement": "linspace and linspace_fix return N values, the first is x1 (N>=2) and the last is x2, consecutive values differ by (x2-x1)/(N-1), the vector and the compact forms agree element by element, and the compact form's prev/next/back accessors return the neighbouring/last grid values.", "quantifier": "all end points, all N (including 0 and 1), all indices", "why_tests_cant": "must hold for every N and every pair of end points", "anchors": ["src/utility/util.hpp: linspace, linspace_fix, range_fix, linstep_fix", "src/types/FixedData.hpp: FixedData::operator[], back, prev, next"]}
{"id": "C05", "title": "Histograms lose no sample and put each one in its bin", "statement": "After any sequence of additions the bin counts add up to the number of samples, bin i (inner) counts exactly the samples in [edge(i-1), edge(i)), the first bin those below the minimum and the last those at or above the maximum, and the order of additions does not matter.", "quantifier": "all ranges min<max, all bin counts N>=1, all finite sample sequences", "why_tests_cant": "samples are an unbounded stream collected over a lifetime simulation", "anchors": ["src/types/Histogram.hpp: Histogram, add, viewBinValues, getEdgeValues"]}
{"id": "C06", "title": "Parallel execution runs every task exactly once", "statement": "Running a task range on the thread pool executes every index of the range exactly once, whatever the number of workers, the hardware concurrency and the interleaving of the workers, and for tasks that touch disjoint state gives the same final state as the serial loop.", "quantifier": "all range lengths, all worker counts, all hardware concurrency values, all schedules", "why_tests_cant": "schedules and machine sizes cannot be enumerated by tests", "anchors": ["src/utility/parallelisation.hpp: run"]}
{"id": "C07", "title": "Fixed-capacity vectors never write outside their storage", "statement": "Every sequence of push_back and indexed access on a fixed-capacity vector either stores/returns the right element or throws; it never accesses storage beyond the capacity, and the elements are those pushed, in order.", "quantifier": "all capacities, all operation sequences", "why_tests_cant": "out-of-bounds writes are silent in a test run", "anchors": ["src/types/SmallVector.hpp: SmallVector::push_back, operator[]"]}
{"id": "C08", "title": "Saving and restoring a set of states brings back every saved value", "statement": "After adding any number of state blocks to a state storage, mutating the originals arbitrarily and restoring, every saved block holds the values it had when it was added and nothing else is changed.", "quantifier": "all numbers and sizes of saved blocks, all mutations in between", "why_tests_cant": "history property over arbitrary mutations and block layouts", "anchors": ["src/types/data_storage/StateStorage.hpp: StateStorage::add, restore"]}
{"id": "C09", "title": "Data written to disk is complete, in order and parseable as rows", "statement": "For every split of a simulation's samples into write batches, the file produced by appending each batch contains every sample exactly once, in order, and splitting the file at separators gives back the rows; the in-memory buffer is empty after each write.", "quantifier": "all batch splits, all numbers of samples, all row widths", "why_tests_cant": "depends on where the buffer happens to be flushed", "anchors": ["src/utility/free_functions.hpp: write_data", "src/types/data_storage/CellDataStorage.hpp, CellDataWriter.hpp"]}
{"id": "C10", "title": "Copies of storage units are independent of the original", "statement": "Copying a storage unit yields a unit with the same observable state; any operation sequence on the copy leaves the original unchanged and vice versa, and identifiers of the copy's parts refer to the copy.", "quantifier": "all unit trees, all operation sequences on either", "why_tests_cant": "aliasing through owned pointers shows only for particular later mutations", "anchors": ["src/types/Deep_ptr.hpp: Deep_ptr", "src/modules/Module.hpp: SUs", "src/StorageUnit.hpp: getFullID"]}
{"id": "C11", "title": "The voltage check of a cell follows the documented decision table", "statement": "Checking a cell's voltage reports Success when the voltage is inside the [Vmin,Vmax] band (with its margin), a hard violation exactly when it is outside [VMIN,VMAX] in the direction of the current, a soft violation exactly when it is outside the band but inside the hard limits in the direction of the current, and 'not calculated' exactly when no positive voltage can be computed; the reported voltage is the cell's voltage.", "quantifier": "all voltages, all currents, all limit settings whose soft band with its margin lies within the hard limits", "why_tests_cant": "the case analysis covers a continuum of voltages/currents including boundary values", "anchors": ["src/utility/free_functions.hpp: check_voltage", "src/cells/Cell.hpp: Cell::checkVoltage", "src/StorageUnit.hpp: isCharging, isDischarging"]}
{"id": "C12", "title": "Rejected ECM commands leave the cell unchanged; accepted ones take effect", "statement": "setCurrent, setVoltage, setSOC and setStates of the equivalent-circuit cell, whenever they return a bad status, leave every observable of the cell as before; whenever they return an OK status the commanded quantity has the commanded value and the others are unchanged.", "quantifier": "all cells (any OCV table, resistances, number of RC pairs), all states, all command values, check flags on or off", "why_tests_cant": "the failing branch depends on the full continuum of states; tests reach few of them", "anchors": ["src/cells/Cell_ECM/Cell_ECM.hpp: setCurrent, setVoltage, setSOC, setStates"]}
{"id": "C13", "title": "Reading out and writing back the states of an ECM cell is the identity", "statement": "For every valid state, getStates followed by setStates (on the same or an equally configured cell in any state) reproduces the state and consumes exactly the cell's own values from the span, leaving the rest untouched; an invalid vector is rejected.", "quantifier": "all states, all continuations of the span", "why_tests_cant": "must hold for every state and span layout", "anchors": ["src/cells/Cell_ECM/Cell_ECM.hpp: getStates, setStates, validStates", "src/cells/Cell_ECM/State_ECM.hpp"]}
{"id": "C14", "title": "ECM charge accounting is exact", "statement": "Over any sequence of constant-current steps the state of charge falls by the signed charge drawn divided by capacity, the Ah throughput grows by the absolute charge, elapsed time grows by the stepped time, and the Ah, Wh and time counters never decrease.", "quantifier": "all operation histories of current changes and time steps, all dt>=0, all step counts", "why_tests_cant": "conservation over unbounded histories", "anchors": ["src/cells/Cell_ECM/Cell_ECM.hpp: timeStep_CC, setCurrent", "src/cells/Cell_ECM/State_ECM.hpp"]}
{"id": "C15", "title": "ECM polarisation currents relax towards the cell current and stay bounded", "statement": "For a constant current and a step no longer than the time constant, each RC branch current moves monotonically towards the cell current without overshoot; over any history of currents bounded by M the branch currents stay bounded by M, so the polarisation voltage stays bounded.", "quantifier": "all histories, all dt in (0, tau], all currents bounded by M, any number of branches", "why_tests_cant": "stability over unbounded time", "anchors": ["src/cells/Cell_ECM/Cell_ECM.hpp: timeStep_CC, V"]}
{"id": "C16", "title": "ECM time steps compose", "statement": "Taking n+m steps of dt at constant current in one call is the same as taking n and then m steps; zero steps change nothing; a negative step is rejected without any change.", "quantifier": "all n, m, dt, cell states", "why_tests_cant": "holds for every split of every simulation", "anchors": ["src/cells/Cell_ECM/Cell_ECM.hpp: timeStep_CC"]}
{"id": "C17", "title": "A voltage command on an ECM cell delivers that voltage", "statement": "After an accepted setVoltage(V) the terminal voltage equals V, and the current equals (OCV - V - polarisation)/R.", "quantifier": "all cells with nonzero resistance and SOC in the OCV table's range, all V", "why_tests_cant": "continuum of states and set points", "anchors": ["src/cells/Cell_ECM/Cell_ECM.hpp: setVoltage, V, getOCV"]}
{"id": "C18", "title": "A cell's state of charge stays physical under any sequence of accepted commands", "statement": "Starting from a legal state, no sequence of accepted API calls (current, SOC and state commands, time steps) takes the state of charge outside [0,1] or makes it not-a-number without an error being reported.", "quantifier": "all operation histories", "why_tests_cant": "invariant over histories", "anchors": ["src/cells/Cell_ECM/Cell_ECM.hpp: timeStep_CC, setSOC, setStates, validStates", "src/utility/free_functions.hpp: check_SOC"]}
{"id": "C19", "title": "Rejected single-particle-cell commands leave the cell unchanged", "statement": "setCurrent, setVoltage, setSOC and setStates of the single particle cell, whenever they report failure (bad status or exception), leave the observable cell (states, current, voltage) as it was.", "quantifier": "all cells, states, command values", "why_tests_cant": "failure depends on electrochemical state over a continuum", "anchors": ["src/cells/Cell_SPM/Cell_SPM.cpp: setCurrent, setSOC, setStates, validStates"]}
{"id": "C20", "title": "The voltage reported by a single-particle cell is always that of its present state", "statement": "After any sequence of API calls, V() returns the voltage computed from the present states, never a value cached for earlier states.", "quantifier": "all operation histories mixing commands, time steps, temperature and parameter changes", "why_tests_cant": "cache staleness shows only for particular call orders", "anchors": ["src/cells/Cell_SPM/Cell_SPM.cpp: V, setT, setCurrent, setStates", "src/cells/Cell_SPM/Cell_SPM_dstate.cpp: timeStep_CC"]}
{"id": "C21", "title": "Single-particle charge accounting is exact", "statement": "Over any sequence of constant-current steps SOC falls by the signed charge divided by capacity, Ah throughput grows by the absolute charge, time by the stepped time, and time, Ah and Wh never decrease.", "quantifier": "all histories, dt>=0, step counts", "why_tests_cant": "conservation over unbounded histories", "anchors": ["src/cells/Cell_SPM/Cell_SPM_dstate.cpp: timeStep_CC, dState_diffusion"]}
{"id": "C22", "title": "Solid diffusion is linear and inert without current", "statement": "The diffusion update of the transformed concentrations is linear in (concentration, current): superposed states and currents give superposed results over any number of steps, and positive and negative molar fluxes balance (what leaves one electrode enters the other).", "quantifier": "all states, currents, dt, step counts", "why_tests_cant": "an algebraic law over all inputs", "anchors": ["src/cells/Cell_SPM/Cell_SPM_dstate.cpp: dState_diffusion", "src/cells/Cell_SPM/Cell_SPM_diffusion.cpp: calcMolarFlux"]}
{"id": "C23", "title": "Degradation only ever degrades", "statement": "With no degradation model selected ageing states never change; with models selected lost lithium inventory, SEI thickness, crack surface and plated lithium never decrease, and electrode thickness never increases through the loss-of-active-material models with positive rate parameters.", "quantifier": "all sets of selected models, all cell states, all histories", "why_tests_cant": "ageing is simulated over years of steps; monotonicity must hold in every state", "anchors": ["src/cells/Cell_SPM/Cell_SPM_degradation.cpp: SEI, CS, LAM, LiPlating", "src/cells/Cell_SPM/Cell_SPM_dstate.cpp: dState_degradation"]}
{"id": "C24", "title": "State vectors of single-particle cells round-trip", "statement": "getStates followed by setStates on an equally configured cell reproduces every state (also after ageing), and the vector has the documented fixed layout.", "quantifier": "all reachable states", "why_tests_cant": "reachable states after ageing are not covered by tests of fresh cells", "anchors": ["src/cells/Cell_SPM/Cell_SPM.cpp: getStates, setStates, validStates", "src/cells/Cell_SPM/State_SPM.hpp"]}
{"id": "C25", "title": "Cell-to-cell variation arguments are honoured", "statement": "A single particle cell constructed with variation factors for capacity, resistance and degradation uses those factors: different factors give different behaviour and the factors can be read back.", "quantifier": "all factors", "why_tests_cant": "an ignored argument is invisible to a test with nominal factors", "anchors": ["src/cells/Cell_SPM/Cell_SPM.cpp: Cell_SPM::Cell_SPM, getVariations"]}
{"id": "C26", "title": "Module aggregates follow circuit laws at any nesting depth", "statement": "For every tree of series and parallel modules: number of cells is the number of leaves; series voltage, OCV and voltage limits are the sums over children and its capacity their minimum; parallel current and capacity are the sums over children, its limits the tightest child limits; the total resistance is that of the equivalent network including contact resistances.", "quantifier": "all trees, any depth and width", "why_tests_cant": "structural induction over arbitrary topologies", "anchors": ["src/modules/Module_s.hpp/.cpp", "src/modules/Module_p.hpp/.cpp: getRtot", "src/modules/Module.hpp/.cpp"]}
{"id": "C27", "title": "Series current commands are all-or-nothing", "statement": "Setting the current of a series module either gives every child (at any depth below) that current and reports success, or reports failure and leaves every child's current as it was.", "quantifier": "all trees of series modules, all currents, any failing position", "why_tests_cant": "failure position and size are unbounded", "anchors": ["src/modules/Module_s.cpp: Module_s::setCurrent"]}
{"id": "C28", "title": "Module state vectors round-trip at any nesting depth", "statement": "getStates of a module tree followed by setStates on the same topology reproduces the states of every cell and consumes exactly its own values.", "quantifier": "all trees, all valid states", "why_tests_cant": "structural induction over topologies", "anchors": ["src/modules/Module.cpp: getStates, setStates"]}
{"id": "C29", "title": "A failed module state restore changes nothing", "statement": "If setStates on a module reports failure, every child has the states it had before.", "quantifier": "all trees, all failing positions", "why_tests_cant": "failing position is arbitrary", "anchors": ["src/modules/Module.cpp: Module::setStates"]}
{"id": "C30", "title": "The voltage reported by a series module is that of its children now", "statement": "After any sequence of API calls on the module or on its children, V() of a series module equals the sum of the children's present voltages less the contact drops.", "quantifier": "all operation histories including calls on the children", "why_tests_cant": "cache staleness depends on call order", "anchors": ["src/modules/Module_s.cpp: V, setCurrent, timeStep_CC", "src/modules/Module.hpp: Vmodule_valid"]}
{"id": "C31", "title": "Parallel branch voltages follow the contact-resistance ladder", "statement": "The terminal voltages computed for a parallel module's branches equal each branch's voltage minus the drops over all contact resistances upstream, each carrying the summed current of the branches behind it, and the module's voltage is the voltage at its terminals.", "quantifier": "all numbers of branches, resistances, currents", "why_tests_cant": "ladder of arbitrary length", "anchors": ["src/modules/Module_p.cpp: getVall, V"]}
{"id": "C32", "title": "Parallel current commands deliver the total current with equal branch voltages", "statement": "When setting the current of a parallel module (or redistributing) reports success, the branch currents add up to the commanded total and the branch voltages agree within tolerance; otherwise a failure is reported and the previous currents are restored.", "quantifier": "all numbers of branches, all cells, all commands", "why_tests_cant": "iteration outcome depends on a continuum of states", "anchors": ["src/modules/Module_p.cpp: setCurrent, redistributeCurrent, setVoltage"]}
{"id": "C33", "title": "All cells of a module advance together, independent of thread schedule", "statement": "A module time step advances every cell of the tree by exactly the same elapsed time, for every thread schedule the same as stepping the children one after the other.", "quantifier": "all trees, schedules, step sizes", "why_tests_cant": "schedules and topologies are unbounded", "anchors": ["src/modules/Module_s.cpp: timeStep_CC", "src/modules/Module_p.cpp: timeStep_CC", "src/utility/parallelisation.hpp: run"]}
{"id": "C34", "title": "Heat generated in contact resistances is r I^2 t", "statement": "Over any sequence of steps the contact heat a module accumulates equals the sum over contact resistances of resistance times the square of the current through it times the time.", "quantifier": "all modules, all histories", "why_tests_cant": "energy accounting over histories and widths", "anchors": ["src/modules/Module_s.cpp: timeStep_CC", "src/modules/Module_p.cpp: timeStep_CC"]}
{"id": "C35", "title": "getVhigh and getVlow are the extreme cell voltages of the tree", "statement": "getVhigh (getVlow) of any unit returns the highest (lowest) voltage over all cells below it.", "quantifier": "all trees, all cell voltages", "why_tests_cant": "arbitrary trees and voltages", "anchors": ["src/modules/Module.cpp: getVhigh, getVlow", "src/system/Battery.hpp: getVhigh, getVlow", "src/cells/Cell.hpp"]}
{"id": "C36", "title": "Blocking degradation and thermal updates reaches every cell", "statement": "After blocking degradation and thermal updates on a unit, no cell below it changes its ageing or thermal state in later time steps; unblocking restores updates.", "quantifier": "all trees", "why_tests_cant": "depth of nesting is arbitrary", "anchors": ["src/StorageUnit.hpp: setBlockDegAndTherm", "src/modules/Module.hpp: setBlockDegAndTherm"]}
{"id": "C37", "title": "The module voltage check reports the worst child and the sum of voltages", "statement": "checkVoltage on a module tree is OK exactly when it is OK for every cell below.", "quantifier": "all trees, all cell states", "why_tests_cant": "arbitrary trees", "anchors": ["src/modules/Module.cpp: checkVoltage"]}
{"id": "C38", "title": "Full identifiers are unique and spell the path from the root", "statement": "In any tree whose siblings have distinct identifiers (without separator), getFullID gives different names to different units, namely the path from the root.", "quantifier": "all trees", "why_tests_cant": "data files of different cells would overwrite each other for some topology", "anchors": ["src/StorageUnit.hpp: getFullID", "src/modules/Module.hpp: getFullID"]}
{"id": "C39", "title": "Coolant temperature stays in its allowed range", "statement": "For any sequence of temperature updates every accepted coolant temperature lies in the allowed range, and an update outside the range or not-a-number is rejected with an exception and leaves the temperature unchanged.", "quantifier": "all histories of temperature commands", "why_tests_cant": "history property including non-finite values", "anchors": ["src/cooling/CoolSystem.cpp: setT"]}
{"id": "C40", "title": "Fan control is a hysteresis controller", "statement": "With on/off control the fan switches on only at or above the on-temperature, switches off only at or below the off-temperature and otherwise keeps its state, for any temperature history; with proportional control the flow is proportional to the excess temperature or zero.", "quantifier": "all temperature histories, all control settings", "why_tests_cant": "depends on the whole history", "anchors": ["src/cooling/CoolSystem.cpp: control"]}
{"id": "C41", "title": "Every joule of cooling energy is reported exactly once", "statement": "Over any history of cooling operation and load queries on a tree of modules, the sum of the loads returned plus what is still unreported equals the total operating energy consumed; each query resets the counters.", "quantifier": "all trees, all interleavings of operation and queries", "why_tests_cant": "accounting over histories", "anchors": ["src/cooling/CoolSystem.cpp: getCoolingLoad, dstate", "src/modules/Module.cpp: getCoolingLoad", "src/system/Battery.cpp: getCoolingLoad"]}
{"id": "C42", "title": "The air-conditioning power is bounded by its rating and follows its control law", "statement": "For any temperature history, the AC cooling power stays within [0, rated power]; with proportional control it is the gain times the temperature excess (capped), and zero when that is below the switch-on fraction.", "quantifier": "all histories, all control settings", "why_tests_cant": "history property; gains differ per controller", "anchors": ["src/cooling/CoolSystem_HVAC.cpp: control"]}
{"id": "C43", "title": "Thermal exchange conserves energy", "statement": "In one coupled thermal update, the heat a neighbour gains from a unit is the heat that unit loses to it, the temperature rise equals total energy over heat capacity, and summed over any set of mutually coupled units the exchanged energy is zero.", "quantifier": "all numbers of units, temperatures, conductances", "why_tests_cant": "sum over arbitrary numbers of units", "anchors": ["src/cells/Cell_SPM/Cell_SPM_thermal.cpp: thermalModel_coupled", "src/modules/Module.cpp: thermalModel_coupled", "src/cooling/CoolSystem.cpp: dstate"]}
{"id": "C44", "title": "Converter losses are positive and at least the documented stand-by loss", "statement": "For every voltage and current, the power-electronic converter's losses are at least 1.5 kW per documented claim (and in any case strictly positive), so the converter never generates energy.", "quantifier": "all voltages in range, all currents, all ratings", "why_tests_cant": "continuum of operating points", "anchors": ["src/power_conversion/Converter.cpp: getLosses, setPower"]}
{"id": "C45", "title": "A battery scales its cells consistently", "statement": "Battery terminal quantities equal the cell tree's quantities scaled by the series/parallel factors: power equals nseries*nparallel times the tree's power, setCurrent(I) gives the tree I/nparallel and I() reads back I; capacity, voltage limits and cell count scale accordingly.", "quantifier": "all trees, factors, currents", "why_tests_cant": "algebraic law over all inputs", "anchors": ["src/system/Battery.hpp/.cpp"]}
{"id": "C46", "title": "Converter losses of a battery are accumulated and handed out once", "statement": "Over any history of time steps and queries, losses handed out plus losses pending equals the time integral of the converter losses.", "quantifier": "all histories", "why_tests_cant": "accounting over histories", "anchors": ["src/system/Battery.cpp: timeStep_CC, getAndResetConvLosses"]}
{"id": "C47", "title": "Battery state restore is faithful", "statement": "getStates/setStates on a battery restores cells and temperature; when it reports failure nothing has changed; the span is consumed exactly.", "quantifier": "all states, all continuations of the span", "why_tests_cant": "all states and failure positions", "anchors": ["src/system/Battery.cpp: getStates, setStates"]}
{"id": "C48", "title": "Resting takes exactly the requested time", "statement": "rest(t) returns, and on a normal return with the time limit reached the unit has been advanced by exactly t in steps of at most dt, with zero current charge and the reported elapsed time equal to t.", "quantifier": "all units, times, step sizes dt>0, storage intervals", "why_tests_cant": "adaptive step logic depends on all three parameters", "anchors": ["src/procedures/Cycler.cpp: rest"]}
{"id": "C49", "title": "A constant-current procedure never exceeds its time limit and accounts its charge", "statement": "CC(I,V,t) advances the unit by at most t; if it reports the time limit it advanced it by exactly t; the reported throughput time, charge and energy equal the elapsed time, |I|*time and the integral of |I|*V.", "quantifier": "all units, currents, limits, step sizes", "why_tests_cant": "adaptive step logic over unbounded histories", "anchors": ["src/procedures/Cycler.cpp: CC"]}
{"id": "C50", "title": "A constant-current procedure that reports its voltage limit has reached it", "statement": "When CC reports the voltage limit the unit's voltage is at or beyond the limit in the direction of the current; when it continues it was inside the limit and the safety limits.", "quantifier": "all units, currents, limits", "why_tests_cant": "arbitrary voltage trajectories", "anchors": ["src/procedures/Cycler.cpp: CC, setCurrent"]}
{"id": "C51", "title": "A constant-voltage procedure runs for its time limit and reports it", "statement": "CV(V,Ilim,t) either ends early at the current limit/failure or reports the time limit after advancing the unit by exactly t, never fails for lack of an end condition, and reports throughput time equal to the elapsed time.", "quantifier": "all units, dt, t", "why_tests_cant": "depends on rounding of accumulated step sizes", "anchors": ["src/procedures/Cycler.cpp: CV"]}
{"id": "C52", "title": "CCCV reports the sum of its phases", "statement": "The throughput reported by CCCV is the sum of the throughput of its CC and CV phases, and its total duration respects the time limit.", "quantifier": "all units, limits", "why_tests_cant": "all trajectories", "anchors": ["src/procedures/Cycler.cpp: CCCV, CCCV_with_tlim"]}
{"id": "C53", "title": "A capacity test leaves the unit as it found it", "statement": "testCapacity returns the discharged capacity and afterwards the unit has the states it had before the test.", "quantifier": "all units, states", "why_tests_cant": "all states and failure points", "anchors": ["src/procedures/Cycler.cpp: testCapacity"]}
{"id": "C54", "title": "No more samples than the buffer size wait in memory, and none is lost", "statement": "With data storage on, over any sequence of procedures the number of stored-but-unwritten samples never exceeds the buffer limit and written plus unwritten samples equal stored samples, in order.", "quantifier": "all histories", "why_tests_cant": "buffer overflow appears only after very long runs", "anchors": ["src/procedures/Cycler.cpp: storeData, writeData"]}
{"id": "C55", "title": "Visiting a unit tree reaches every unit exactly once", "statement": "visit_SUs applies the function to every unit of the tree exactly once, parents before children, in order.", "quantifier": "all trees including batteries", "why_tests_cant": "structural induction", "anchors": ["src/procedures/procedure_util.hpp: visit_SUs"]}
{"id": "C56", "title": "Balancing brings every cell to the balancing voltage or reports failure", "statement": "rebalance on any unit charges or discharges every cell below to the balancing voltage, or reports a non-success status.", "quantifier": "all trees, including batteries", "why_tests_cant": "all topologies", "anchors": ["src/procedures/Procedure.cpp: rebalance, balanceCheckup"]}
{"id": "C57", "title": "Cycle ageing performs the requested number of cycles or stops at the first failed half-cycle", "statement": "cycleAge runs the requested cycles, check-ups and balancing at their periods, and stops early only when a half-cycle did not end by its intended limit.", "quantifier": "all cycle counts, periods, units", "why_tests_cant": "long loops with data dependent exits", "anchors": ["src/procedures/Procedure.cpp: cycleAge"]}
{"id": "C58", "title": "Recorded throughput entries are per step and sum to the total", "statement": "The throughput records written by a procedure hold the charge/energy/losses of each step so that their sum is the total throughput.", "quantifier": "all histories", "why_tests_cant": "accounting over histories", "anchors": ["src/procedures/Procedure.cpp: storeThroughput, writeThroughput"]}
{"id": "C59", "title": "An accepted OCV curve is a usable OCV curve", "statement": "Every curve accepted by the OCV validation has strictly increasing abscissae from 0 to 1 and voltages in [0,10], so that interpolation on it is well defined; every curve with these properties is accepted.", "quantifier": "all curves, any length, including non-finite entries", "why_tests_cant": "all inputs", "anchors": ["src/procedures/determine_OCV.cpp: validOCV"]}
{"id": "C60", "title": "The grid search returns the best grid point", "statement": "The OCV fit over a parameter grid returns the parameters with the smallest error of all grid points (the first on ties), the error it reports is that of the returned parameters, and refined searches never return a worse fit and stay inside physical bounds.", "quantifier": "all grids, all cost functions below the sentinel", "why_tests_cant": "argmin over arbitrary grids", "anchors": ["src/procedures/determine_OCV.cpp: fitAMnAndStartingPoints, hierarchicalOCVfit, cost_OCV"]}
{"id": "C61", "title": "The rank-one Cholesky update is correct", "statement": "cholUpdate(L,x) returns lower-triangular L' with L' L'^T = L L^T + x x^T.", "quantifier": "all sizes N, lower-triangular L with positive diagonal, all x", "why_tests_cant": "algebraic law over all matrices", "anchors": ["src/types/matrix.hpp: cholUpdate", "src/optimisation/MCMC.hpp"]}
{"id": "C62", "title": "A module only ever owns units that are free", "statement": "setSUs either takes ownership of all given units (each then has the module as parent, one contact resistance each) or throws and leaves the module's units as they were; no unit ends up with two parents.", "quantifier": "all lists of units, all prior owners", "why_tests_cant": "arbitrary ownership histories", "anchors": ["src/modules/Module.cpp: setSUs, setRcontact"]}
{"id": "C63", "title": "CSV matrices are read back as written", "statement": "Loading a well-formed numeric CSV file gives the matrix of its values in row/column order; a byte-order mark is ignored; short files are rejected or detected, never silently misread.", "quantifier": "all matrix sizes, all values", "why_tests_cant": "all files", "anchors": ["src/utility/io/read_CSVfiles.hpp: loadCSV_mat, loadCSV_2col, loadCSV_Ncol, ignoreBOM"]}
{"id": "C64", "title": "Different degradation settings have different identifiers", "statement": "The identifier string of a set of degradation models, which names the folders results are written to, determines the set: two different sets never share an identifier.", "quantifier": "all degradation settings", "why_tests_cant": "unit tests print a few settings; injectivity is about all pairs", "anchors": ["src/cells/Cell_SPM/param/DEG_ID.hpp: DEG_ID::print, DEG_ID::add_model"]}
{"id": "C65", "title": "Cooling is paid for and effective as the fan turns", "statement": "During an exchange of t seconds the operating energy grows by the kinetic energy of the air the fan moves divided by the fan's efficiency, plus, for an HVAC, the energy of its cooling power (the documented multiple of the heat when the environment is too hot, the intake fan's energy when it is cool); a stopped fan costs nothing and convects nothing, a faster fan costs more and convects more.", "quantifier": "all cooling systems, flow rates, temperatures, durations", "why_tests_cant": "monotonicity and balance over all real flow rates and states", "anchors": ["src/cooling/CoolSystem.cpp: getH, dstate", "src/cooling/CoolSystem_HVAC.cpp: dstate, getACoperatingEnergy", "src/cooling/CoolSystem_open.cpp"]}
{"id": "C66", "title": "The daily use case follows its published day", "statement": "useCaseAge performs, after an initial discharge, up to 20 days of rest 4 h, 1C charge, rest 1 h, 1C discharge, rest 4 h, C/2 charge, rest 4 h, C/2 discharge, rest 5 h, with balancing every 7th and a check-up every 10th day and one at the end, and breaks a day off only when a rest, the last discharge or a call fails.", "quantifier": "all units, all outcomes of every call including exceptions", "why_tests_cant": "the outcomes of some 450 calls vary independently", "anchors": ["src/procedures/Procedure.cpp: useCaseAge, balanceCheckup"]}
{"id": "C67", "title": "A check-up does not disturb the experiment", "statement": "A check-up during an ageing procedure leaves the storage unit and the running throughput as they were; only the records move from memory to the file.", "quantifier": "all units, states and moments of a procedure", "why_tests_cant": "the state of the unit at a check-up is the result of an arbitrary history", "anchors": ["src/procedures/Procedure.cpp: checkUp, checkUp_prep, balanceCheckup, writeThroughput"]}
{"id": "C68", "title": "The simulated slow discharge ends and conserves lithium", "statement": "The slow discharge that the OCV fit simulates from given electrode curves, capacities and starting fractions stops at the first 5 s period at which an electrode is full or empty or the voltage is below the end voltage; in every stored row what the anode lost the cathode gained and it equals the stored charge; it ends for every positive capacity; both overloads agree; a start outside the curves is refused with the documented error.", "quantifier": "all curves, capacities, amounts of material, starting fractions and end voltages; simulations of any length", "why_tests_cant": "the number of periods is unbounded and the curves are arbitrary", "anchors": ["src/procedures/determine_OCV.cpp: discharge_noexcept, discharge, estimateOCVparameters"]}
{"id": "C69", "title": "The pack factories build the pack their name says", "statement": "Every battery factory returns a battery of the stated numbers of cells in series and parallel at every level, with the stated contact resistances and cooling, cells made in order with their own random factors (1 when a spread is off), all with different full names, of capacity and voltage limits the cell's times the numbers in parallel and in series, and reports the number of cells it builds.", "quantifier": "all flags, control strategies, resistance multipliers, random engines, cell types; nestings of any depth and width", "why_tests_cant": "packs of up to 18900 cells with random factors and any cell constructor", "anchors": ["src/factories/makeBattery.cpp: makeBattery, makeBattery2, makeBattery_EPFL_smaller, makeBattery_EPFL, makeBattery_Test, makeBattery_TestParallel", "src/StorageUnit.hpp: getFullID"]}
{"id": "C70", "title": "The adaptive Markov chain keeps a valid proposal and samples the posterior", "statement": "Updating the proposal matrix with a non-zero random vector and an acceptance probability gives again a lower-triangular matrix with positive diagonal; the proposal covariance changes exactly by n^(-1/2)(alpha-0.234) times the normalised outer product of the step, so that in every direction the spread grows when more than 23.4% is accepted and shrinks otherwise; the number the chain minimises is the negative log of prior times Gaussian likelihood; the prior admits positive parameters only; a record lists parameters, noise and likelihood in order.", "quantifier": "all dimensions, matrices, random vectors, acceptance probabilities, iteration numbers, histories, priors, cost functions", "why_tests_cant": "the chain is an unbounded history of random steps in any dimension", "anchors": ["src/optimisation/MCMC.hpp: S_update, MCMC_Input, Prior, LL, MCMC_Record", "src/types/matrix.hpp: eye, cholUpdate", "src/utility/slide_aux.hpp: norm_sq, GammaDensityFunctor"]}
{"id": "C71", "title": "Usage statistics account for all heat, time and energy", "statement": "With statistics switched on, the histograms of a cooling system hold one sample per storage interval, and the samples' mean powers times the lengths of their intervals, plus what is pending, are exactly the heat taken from the children, the elapsed time and the energy of the fans; storing changes nothing else; storing a pack makes every cell store exactly once and succeeds exactly if every module was announced with the number of cells it has (true of all packs of the factories), else it throws 10.", "quantifier": "all histories of heat exchanges, control actions, temperature changes, storage requests and writes; all trees", "why_tests_cant": "unbounded histories with arbitrary interleavings of storage requests", "anchors": ["src/cooling/data_storage/CoolSystemData.cpp: initialise, storeData, writeData", "src/cooling/data_storage/CoolSystem_HVACData.cpp: storeData", "src/cooling/CoolSystem.cpp: storeData", "src/modules/Module.hpp: storeData", "src/system/Battery.cpp: storeData"]}
{"id": "C72", "title": "Voltage, resistance and polarisation of a single-particle cell", "statement": "With both surface concentrations strictly between empty and full, the terminal voltage is below the open circuit voltage on discharge, above it on charge and equal to it at rest; the reported DC resistance is the series connection of film, electrodes and collectors, and changing resistances or the film moves the voltage by exactly minus the current times the change; with a surface empty or full the voltage is 0 and a current leading there is refused; setting uniform concentrations gives exactly these surface concentrations and the open circuit voltage of the electrode curves there.", "quantifier": "all cells with positive geometry and kinetics, all states, currents, temperatures, OCV curves and discretisations", "why_tests_cant": "the sign of the polarisation must hold for every state, geometry and temperature", "anchors": ["src/cells/Cell_SPM/Cell_SPM.cpp: V, getOCV, getRdc, getC, getCSurf, setC, setCurrent, checkCurrent", "src/cells/Cell_SPM/Cell_SPM.hpp: getRtot", "src/cells/Cell_SPM/Cell_SPM_diffusion.cpp: calcOverPotential"]}
{"id": "C73", "title": "Heat and temperature of a single-particle cell balance", "statement": "Over any call, the heat booked plus pending grows by exactly the duration times current times (open circuit minus terminal voltage) minus the entropic heat, and the former is never negative; no other call creates or destroys heat; the temperature a thermal update returns is the pending heat plus the heat received divided by the thermal capacity, within the limits; without pending heat it stays between the coldest and hottest of the cell and its neighbours when the coefficients are small for the elapsed time; exchange between two cells is antisymmetric.", "quantifier": "all cells, states, durations, neighbours, thermal models, results of calls", "why_tests_cant": "heat is accumulated over unbounded histories and any neighbourhood", "anchors": ["src/cells/Cell_SPM/Cell_SPM_thermal.cpp: thermalModel, thermalModel_cell, thermalModel_coupled", "src/cells/Cell_SPM/Cell_SPM_dstate.cpp: dState_thermal, timeStep_CC"]}
{"id": "C74", "title": "Degradation models combine additively and conserve lithium", "statement": "For each kind of mechanism (film growth, crack growth, loss of active material) the effect of several selected models in a call is the sum of their effects, in any order of selection; every mechanism acts on its own quantities only; the lithium lost to side reactions is exactly the lithium the anode loses, as by a further discharge of that charge, and the cathode is not touched; crack growth by the fourth model approaches its maximum and never exceeds it; cracks slow diffusion by at most 2e-7 of the constant per second; only documented identifiers are accepted, and stress models only with their stress computed in the same call.", "quantifier": "all selections of models (lists of any length), cells, states, durations", "why_tests_cant": "any combination of models may be selected, on any cell state", "anchors": ["src/cells/Cell_SPM/Cell_SPM_degradation.cpp: SEI, CS, LAM, LiPlating", "src/cells/Cell_SPM/Cell_SPM_dstate.cpp: dState_degradation, timeStep_CC"]}
{"id": "C75", "title": "No call on a well-formed unit leaves its arrays", "statement": "On a cell, module, nested module or battery whose tables, contact resistances and children are consistent, every call of the interface, in any order and number and with any arguments, returns or throws an exception that the caller can catch: it never reads or writes outside an array, never converts a value that does not fit and never terminates the program; the unit keeps its layout; its voltage can always be read. A vector of states must have at least as many values as the unit has states.", "quantifier": "all histories of calls with any arguments, on units of any depth and layout of equivalent-circuit or single-particle cells, and on batteries; exact arithmetic", "why_tests_cant": "memory errors appear only for particular layouts, states and sequences of calls; no finite set of runs excludes them", "anchors": ["src/StorageUnit.hpp: StorageUnit", "src/modules/Module.cpp: setStates, thermalModel_coupled", "src/modules/Module_s.cpp: setCurrent, timeStep_CC", "src/modules/Module_p.cpp: setCurrent, setVoltage, redistributeCurrent, timeStep_CC", "src/system/Battery.cpp: setStates, timeStep_CC, thermalModel", "src/cells/Cell_ECM.hpp: setStates, V, timeStep_CC", "src/cells/Cell_SPM/Cell_SPM.cpp: setStates, V", "src/types/XYdata.hpp: interp"]}
{"id": "C76", "title": "Temperature acts on a single-particle cell as Arrhenius' law says", "statement": "At rest, relaxation at one temperature is relaxation at another with the time scaled by the Arrhenius factor of the diffusion constant of the electrode, faster when hotter; the voltage at rest depends on the temperature through the entropic coefficient only; at the same current and surface concentrations the kinetic voltage loss, in thermal voltages, is strictly smaller in the hotter cell, on charge and on discharge; film growth and plating at rest follow Tafel's law at the potential of the anode with the temperature of the cell, and the current-driven loss of active material is proportional to the Arrhenius factor.", "quantifier": "all cells, states, temperatures, activation energies, durations, numbers of steps, OCV curves and discretisations", "why_tests_cant": "the dependence must hold at every pair of temperatures and every state; a wrong sign cancels at the reference temperature where tests are run", "anchors": ["src/cells/Cell_SPM/Cell_SPM_diffusion.cpp: calcDiffConstant, calcOverPotential", "src/cells/Cell_SPM/Cell_SPM.cpp: V, setT", "src/cells/Cell_SPM/Cell_SPM_degradation.cpp: SEI, LAM, LiPlating", "src/cells/Cell_SPM/Cell_SPM.hpp: calcArrheniusCoeff"]}
{"id": "C77", "title": "In double precision clocks and books drift by a few rounding units per step at most", "statement": "With the program's binary64 arithmetic: the time, charge and energy counters of an equivalent-circuit cell never run backwards, whatever doubles the cell holds (infinities and not-a-numbers included); after any history the time, the charge throughput and the state of charge differ from the exact sums by at most a few rounding units (2^-53) per step; a rest or constant-current run of up to 2^50 s and 2^50 steps always ends, reports the time limit only when its clock has reached it, overshoots it by at most 4 rounding units, takes no step longer than asked, and the time the unit was advanced by is the limit up to 4 rounding units per turn.", "quantifier": "all cells, doubles, histories, units, limits, step lengths, storage intervals", "why_tests_cant": "rounding errors accumulate over unbounded numbers of steps, and their sign and size depend on every operand; a loop that stalls on rounding shows up only for particular limits and steps", "anchors": ["src/cells/Cell_ECM/Cell_ECM.hpp: timeStep_CC", "src/procedures/Cycler.cpp: rest, CC"]}
{"id": "C78", "title": "Each ageing model follows its own law, each electrode its own parameters", "statement": "In any call, with any selection of models: each electrode gets thinner by its own coefficient times the change of the stress in itself (loss model 1), loses active material with its own coefficients and the flux through its own particles (model 2), the cathode additionally dissolves by at most 5e-6 per second (model 3), and each loses specific surface at its own rate (model 4) and in proportion to its lost volume fraction; the crack surface of the anode grows with the square root of duration times change of the anode's own stress (crack models 1 and 2), the square of the spread of concentrations in the anode (model 3), the distance to the maximum times the current (model 4), and while charging with the film reaction, double below a filling of 0.3 and not at all between 0.3 and 0.7 (model 5); a model selected several times acts that many times; with loss model 4 only, each electrode's surface decays as the product over all calls.", "quantifier": "all cells, states, selections of models, durations, sequences of calls", "why_tests_cant": "a coefficient or stress of the wrong electrode changes nothing when both are equal, as they are in the shipped parameters of model 4; the law must hold for every selection and state", "anchors": ["src/cells/Cell_SPM/Cell_SPM_degradation.cpp: CS, LAM", "src/cells/Cell_SPM/Cell_SPM_dstate.cpp: dState_degradation, timeStep_CC"]}
{"id": "C79", "title": "Which state vectors a single-particle cell accepts", "statement": "setStates stores a vector of states exactly if the state of charge is within [0,1], the temperature within its limits, both surface concentrations strictly between empty and full, the film thickness positive, the specific surfaces equal to 3 eps/R to 1e-5, and crack surface, resistances and plated lithium not negative; a vector with negative lost lithium is answered by exception 15; every other vector is refused and the cell keeps its states; with the voltage check the voltage is computed and judged against the limits. Physically meaningless vectors are refused.", "quantifier": "all cells, vectors of states, OCV curves and discretisations", "why_tests_cant": "acceptance is a conjunction over all states; a test vector violates one condition at a time, at one value", "anchors": ["src/cells/Cell_SPM/Cell_SPM.cpp: setStates, validStates", "src/utility/free_functions.hpp: check_Cell_states, check_SOC, check_voltage"]}
{"id": "C80", "title": "Cycling a string of cells counts every coulomb", "statement": "After any sequence of rests and constant-current phases that ended at their time or voltage limit on a string of equivalent-circuit cells (series modules nested to any depth, any cooling and any data storage), every cell has passed every phase's current for that phase's time: its state of charge fell by the net charge over its own capacity, its throughput and clock and the cycler's report agree with each other and with the phases; a phase ended by time lasted exactly the time asked; discharging and charging back for the same time restores every cell. The same holds of constant-voltage phases.", "quantifier": "all strings, depths, cells, OCV curves, currents, limits, step lengths, storage intervals, sequences of calls", "why_tests_cant": "it composes the adaptive step sizes of the cycler, the broadcast of currents down the tree and the books of every cell over unbounded histories", "anchors": ["src/procedures/Cycler.cpp: rest, CC, CV, setCurrent", "src/modules/Module_s.cpp: setCurrent, timeStep_CC", "src/cells/Cell_ECM/Cell_ECM.hpp: timeStep_CC, setCurrent", "src/utility/free_functions.hpp: setVoltage_iterative"]}
{"id": "C81", "title": "A battery of identical cells behaves as one cell, scaled", "statement": "Take identical equivalent-circuit cells, k in series and p in parallel in any nesting of series and parallel modules without contact resistance. Its current is p times and its voltage k times that of a cell, its voltage check reports the cell's status, a current p*j the cell accepts is shared evenly, a time step keeps the branches balanced. Resting it, or cycling it at a constant current I to a voltage limit V for at most a given time, does what the same call on a single cell at I/p to V/k does: the same outcome after the same time, every cell in the single cell's state, p times the charge and k*p times the energy in the books.", "quantifier": "all nestings, numbers of cells, cells, OCV curves, currents, limits, step lengths, storage intervals, diagnostic modes", "why_tests_cant": "the equivalence is between two runs of adaptive loops on trees of unbounded size and depth; a factor lost in one module type shows only in nestings that combine it with another", "anchors": ["src/procedures/Cycler.cpp: rest, CC, setCurrent", "src/modules/Module_s.cpp: V, setCurrent, timeStep_CC", "src/modules/Module_p.cpp: setCurrent, getVall, redistributeCurrent, timeStep_CC", "src/modules/Module.cpp: checkVoltage, getVlow", "src/cells/Cell_ECM/Cell_ECM.hpp: V, setCurrent, timeStep_CC"]}
{"id": "C82", "title": "What modules and cyclers promise does not depend on the kind of cell", "statement": "For any tree of modules whose cells are equivalent-circuit and single-particle cells in any mixture: capacity, current and voltage limits combine as for one kind; the voltage check reports the worst of what the cells find; a time step books in every cell exactly what its own current draws, also inside parallel modules. On strings (series modules nested to any depth) a current is accepted by all cells or refused with the status of a cell that refuses it, the voltage is the sum of the cells' voltages less the loss in the contacts, and after any sequence of rests and constant-current phases that ended at their time or voltage limit the state of charge, throughput and clock of every cell, the cycler's books and the user's schedule agree.", "quantifier": "all mixtures of cells, depths, states, currents, limits, step lengths, storage intervals, sequences of calls, mathematical functions and cooling models", "why_tests_cant": "cells of different kinds cache different things and fail in different ways; tests use packs of one kind, at one depth", "anchors": ["src/modules/Module.hpp: SUs", "src/StorageUnit.hpp", "src/modules/Module_s.cpp: V, setCurrent, timeStep_CC", "src/modules/Module_p.cpp: timeStep_CC", "src/modules/Module.cpp: checkVoltage, getVlow, getVhigh", "src/cells/Cell_SPM/Cell_SPM.cpp: V, setCurrent", "src/cells/Cell_SPM/Cell_SPM_dstate.cpp: timeStep_CC", "src/cells/Cell_ECM/Cell_ECM.hpp", "src/procedures/Cycler.cpp: rest, CC"]}
{"id": "C83", "title": "A single-particle cell's counters are trustworthy in double precision", "statement": "In the double arithmetic of the program, whatever calls operate a single-particle cell and whatever their outcome, its clock and charge counter never decrease (unless they become not-a-number), nor does its energy counter over a time step. After any operating history, with or without ageing, with books that stay finite and inputs of a moderate size, the clock, the charge throughput and the state of charge differ from the exact sums of what was asked for by at most a few units of 2^-53 per step, relative to the size of the counter, plus a few units of the charge moved.", "quantifier": "all doubles incl. infinities and not-a-numbers, cells, mathematical functions, step lengths, numbers of steps, sequences of calls", "why_tests_cant": "rounding errors accumulate over millions of steps; a test checks a handful of sums with a tolerance", "anchors": ["src/cells/Cell_SPM/Cell_SPM_dstate.cpp: timeStep_CC", "src/cells/Cell_SPM/Cell_SPM.cpp: V, setCurrent"]}
{"id": "C84", "title": "Interpolated table values are trustworthy in double precision", "statement": "In the double arithmetic of the program, looking up a finite number inside a table of at least two finite, distinct, ascending points of moderate size gives a finite number that differs from the exact piecewise linear function by at most 16 units of 2^-53 of the largest ordinate, so it leaves the range of the ordinates by no more than that. Strictly between two neighbouring points the answers rise or fall exactly as the ordinates do; over a whole rising table they rise up to twice that error. In a table point the answer is that point's ordinate exactly.", "quantifier": "all tables, sizes, queries, both settings of the range check", "why_tests_cant": "cancellation, underflow and rounding depend on the numbers of the table; a test checks a few points with a tolerance", "anchors": ["src/utility/interpolation.hpp: linInt, linInt_noexcept", "src/types/XYdata.hpp: interp"]}
{"id": "C85", "title": "A check-up reports every cell and every module once", "statement": "A check-up appends to its file the headings and, for every cell of the unit in order, one line with the cell's name, its variation factors, the unit's throughput and cycle number, the cell's clock and throughputs, its capacity and its states at the check-up, each under its heading; single-particle cells without their concentrations. If a capacity test raises an exception, the lines of the cells before it are complete. The module report has one line for every module and battery with its name, number of cells, total time, evacuated and absorbed heat.", "quantifier": "all trees of modules and batteries, cells of both kinds, states, numbers of cells, outcomes of the capacity tests", "why_tests_cant": "trees and mixtures of cells are unbounded; the layout of a line depends on the kinds of the cells and on what the capacity test leaves behind", "anchors": ["src/procedures/Procedure.cpp: checkUp, checkMod", "src/procedures/procedure_util.hpp: visit_SUs", "src/procedures/Cycler.cpp: testCapacity", "src/cells/Cell_SPM/State_SPM.hpp: Index"]}
{"id": "C86", "title": "The cycler's charge counter is trustworthy in double precision", "statement": "In the double arithmetic of the program, on any unit: a constant-current run that reports its time or voltage limit has raised the charge throughput by the magnitude of the current times the exact time the unit was advanced by, and a constant-voltage run that returns has raised it by the sum of the lengths of its steps times the magnitude of the current read after each, in Ah; the error is at most two units of 2^-53 of the counter per step and four of the charge. The counter never falls.", "quantifier": "all units, currents, voltages, limits, step lengths, storage intervals, starting counters, numbers of steps", "why_tests_cant": "rounding errors accumulate over millions of steps and depend on the unit's answers; a test checks a handful of sums with a tolerance", "anchors": ["src/procedures/Cycler.cpp: CC, CV, setCurrent", "src/procedures/Cycler.hpp: ThroughputData"]}
{"id": "C87", "title": "Drive cycles and pulse tests record what happened", "statement": "A drive cycle that ends without an error keeps one record per second, at most one per entry of the profile and fewer only when the measured state fell below its limit. The recorded state is the one after that many seconds; its current is the commanded one or the one that flowed before, its voltage the one that the recorded state has, the charge throughput the sum of the recorded currents, and the estimated state of charge a coulomb count of them. The experiments of a series do not influence each other. In the pulse test the two cells do not influence each other either: each has the currents and voltages of the cell that follows the plan alone, line j has the time j exactly, and if no command is refused the whole test moves the capacity of the cell.", "quantifier": "all cells, profiles, limits, starting points, numbers and lengths of pulses and rests, kinds of units", "why_tests_cant": "profiles, histories of earlier experiments and refusals of commands are unbounded; a test compares one file with an earlier one", "anchors": ["examples/drive_cycles.hpp: drive_cycle_artemis (experiment)", "examples/cell_tests.hpp: GITT_test", "src/cells/Cell_SPM/Cell_SPM.cpp: setCurrent, V, setC"]}
{"id": "C88", "title": "Prepared cells are where they were asked to be and recorded curves lose nothing", "statement": "When the helper that prepares a unit returns, the unit has been given the requested current and stepped, second by second, until its voltage, short of the requested one before every step, is at it or past it, and degradation is switched on. The file of a slow charge holds a point of the curve whenever voltage or lithium fractions have moved by more than the threshold since the last line: at every second some line written so far is within the threshold, no two consecutive lines are, and the lines are in order. The log of an hour of discharge has line j at time j exactly, no more than 3601 lines, all above the voltage limit, and its counters advance with the time and the current that flowed. A constant-current run towards a limit that has been passed already takes no step.", "quantifier": "all units and cells, currents, voltages, thresholds, limits, numbers of steps, refused commands", "why_tests_cant": "when a voltage is reached and what is skipped depends on the whole history of the cell; a test looks at one curve", "anchors": ["examples/drive_cycles.hpp: init_cell_manual, drive_cycle_artemis", "benchmark/running_Cell_SPM.hpp: run_Cell_SPM_2", "benchmark/running_LP_cases.hpp: run_LP_case_LargePackLong", "src/procedures/Cycler.cpp: CC, setCurrent"]}
{"id": "C89", "title": "Totals of packs in doubles are the exact totals up to a rounding per addition", "statement": "For every tree of modules of any cells, in double arithmetic, the reported capacity, voltage limits and current are finite and differ from the exact combination of the cells' values (lowest, highest, first or sum) by at most two rounding units per addition a value goes through; a series module's voltage is the sum of what its children report less the contact drops, up to as many roundings; and this holds for whatever order the library takes the sums in.", "quantifier": "all trees, all cell values whose sizes add up to at most 2^1000, at most 2^52 additions, all orders of summation", "why_tests_cant": "rounding depends on every value and on the order of the additions; a test compares one pack with a tolerance", "anchors": ["src/modules/Module_s.hpp: Vmin, Vmax, Cap, I", "src/modules/Module_p.hpp: Vmin, Vmax, Cap, I", "src/modules/Module_s.cpp: V", "src/utility/slide_algorithms.hpp: transform_sum, transform_min, transform_max"]}
{"id": "C90", "title": "Side reactions follow their rate laws at the anode's potential, at any current", "statement": "In every successful call, with any selection of models and at any current, the film grows by the sum of the currents of the selected film models (kinetics, kinetics in series with diffusion, with the solvent following the overpotential), plated lithium by Tafel's law, the lithium lost is exactly the charge of both reactions over the anode surface enlarged by the cracks, the film fills the pores as its own and the main reaction's volumes say, the cathode dissolves at the speed its potential gives up to the cap, and cracks grow on charge with the film reaction; all at the surface concentrations, Butler-Volmer overpotentials and temperature the cell has at the end of the call. A film current limited by diffusion is positive and below both the kinetic and the diffusion limit.", "quantifier": "all cells, states, currents, temperatures, selections of models (lists of any length), durations, OCV curves", "why_tests_cant": "the laws combine exponentials of state-dependent potentials; a test compares one growth figure with a recorded one", "anchors": ["src/cells/Cell_SPM/Cell_SPM_degradation.cpp: SEI, CS, LAM, LiPlating", "src/cells/Cell_SPM/Cell_SPM_dstate.cpp: dState_degradation", "src/cells/Cell_SPM/Cell_SPM_diffusion.cpp: calcOverPotential"]}
{"id": "C91", "title": "An equivalent-circuit cell never gives back more energy than was put into it", "statement": "Take an equivalent-circuit cell with nonnegative resistances whose open-circuit voltage does not fall as it is charged, and use it in any way: set currents, voltages and temperatures, accepted or refused, and run constant-current steps. The energy counter's growth while discharging, plus the energy left in the RC pairs, never exceeds its growth while charging, plus the energy the RC pairs held, plus the charge given up at the open-circuit voltage of the start. So a rested cell that ends with at least its initial state of charge has a round-trip efficiency of at most one. This needs the state of charge to stay inside the open-circuit table: charging beyond full books no energy at all, and the way back then yields energy from nothing.", "quantifier": "every equivalent-circuit cell, with any number of RC pairs and any open-circuit table that never falls; every finite history of commands and constant-current calls, of any length and step (up to twice the smallest time constant), during which the state of charge stays within the table and the voltage is not negative", "why_tests_cant": "Tests cycle a cell between fixed limits and compare counters. That no schedule whatever extracts energy from a closed cycle is a statement about all histories.", "anchors": ["src/cells/Cell_ECM/Cell_ECM.hpp: timeStep_CC, V, getOCV, setCurrent, setVoltage"]}
{"id": "C92", "title": "Time discretisation stays uniformly close to the continuous-time cell and converges to it", "statement": "The RC pairs of an equivalent-circuit cell obey x' = (I - x)/tau between commands. After any history of commands and constant-current calls, of any length, each pair's current is within (largest step / tau) times the largest current of the exact solution, and the voltage read is within the sum of the pairs' resistances times that of the exact circuit's voltage; errors do not accumulate with time. Cutting every stretch of a schedule into ever more steps converges to the exact solution. The diffusion modes of a single-particle cell whose ageing and temperature are held stay equally close to the exact modal diffusion response, for both electrodes and any current profile. In a tree of modules used in any way, every equivalent-circuit cell stays as close to the exact response to the currents it carried.", "quantifier": "every equivalent-circuit cell with any number of pairs, every history of commands and calls with steps up to the time constant, every schedule; every single-particle cell with held ageing, every mode with negative eigenvalue, every current profile", "why_tests_cant": "Tests compare one profile with one step length against a recorded figure; the bound has to hold for all histories and all lengths, and convergence is a limit.", "anchors": ["src/cells/Cell_ECM/Cell_ECM.hpp: timeStep_CC, V", "src/cells/Cell_SPM/Cell_SPM_dstate.cpp: timeStep_CC, dState_diffusion", "src/cells/Cell_SPM/Cell_SPM_diffusion.cpp: calcDiffConstant, calcMolarFlux"]}
{"id": "C93", "title": "Balancing of parallel cells converges to the currents of the circuit laws", "statement": "Equivalent-circuit cells connected in parallel without contact resistance, inside their voltage limits and with capacity (Ah) times resistance (ohm) between 1/40 and 1: redistributing the current, commanding a current and time steps always succeed within the iterations allowed, change nothing but the cells' currents, never take a cell outside the voltages it started between, and, with equal capacities, keep or deliver the total. The currents found are those of the circuit laws up to the tolerance over the cell's resistance. The same holds for parallel strings of cells, with the string's resistance and its smallest capacity. It also holds with contact resistances, for the voltages as the terminals see them, for cells or strings of one capacity as long as the capacity times the largest resistance plus the contact resistances, each weighted with the number of branches behind it, is at most 1 and the cells keep a margin from their limits that is proportional to the imbalance. The currents are then again those of the circuit laws, up to the tolerance over the smallest resistance. Beyond that bound it is false: there are contact resistances of milliohms for which balancing never ends although the cells alone would balance. Outside that range the claim is false: at a product of 2 the branches swap voltages for ever and redistribution fails, for large cells and for long strings in parallel. Physics-based cells without contact resistance balance in the same way if, between the voltages concerned, each cell's voltage falls as its current rises, with capacity times slope between k and 1.", "quantifier": "every list of 2 to 100 cells with any parameters, states of charge, polarisations and currents meeting the condition; every commanded current whose equal shares stay within the limits", "why_tests_cant": "Tests balance a few modules of identical default cells; that the loop ends for every imbalance, and where it stops ending, is a statement about all states and parameters.", "anchors": ["src/modules/Module_p.cpp: redistributeCurrent, setCurrent, timeStep_CC, getVall"]}
{"id": "C94", "title": "Voltage commands on packs reach the commanded voltage", "statement": "A voltage command on a series module of equivalent-circuit cells succeeds whenever the cells stay within their limits at the current that gives the commanded voltage and at the trial current 1% of the capacity away: the module is then left as it was if it was within a microvolt, else every cell carries exactly the current at which the circuit laws give the commanded voltage. On parallel cells or parallel strings without contact resistance the command succeeds, with every branch within 1e-10 V of the command, if 200 times the branch resistance stays away from 0 and 2. With contact resistances the same holds for the voltages as the terminals see them, as long as 200 times the largest resistance plus the weighted contact resistances is at most 1 and the cells keep a margin from their limits. Parallel physics-based cells without contact resistance reach the command too, if each voltage falls with the current and 200 times the slope stays away from 0 and 2. A single physics-based cell reaches the command to a microvolt if the slope of its voltage over its current varies by less than a factor 2 between the present and the commanded voltage and as far beyond. Nothing but currents (and stored voltages) changes.", "quantifier": "every series module of 1 to 100 cells with any parameters, states and contact resistances; every list of up to 100 parallel cells or strings; every commanded voltage meeting the conditions", "why_tests_cant": "Tests command a few voltages on default cells; whether the iteration ends at the commanded voltage for every pack and command, and where it cannot, is a statement about all parameters and states.", "anchors": ["src/utility/free_functions.hpp: setVoltage_iterative", "src/modules/Module_p.cpp: setVoltage", "src/modules/Module_s.cpp: V, setCurrent"]}
{"id": "C95", "title": "A new equivalent-circuit cell is what was asked for and keeps still", "statement": "Constructing an equivalent-circuit cell with a state of charge outside 0 to 1 raises an error; with any other it succeeds, for every capacity and number of RC pairs. The new cell has the requested capacity and state of charge, valid states, no current in it or in its RC pairs and zero counters, and its voltage is its open circuit voltage. Time steps, any number of any length, then change nothing but its time.", "quantifier": "every number of RC pairs, capacity and state of charge; every number and length of time steps", "why_tests_cant": "Tests construct a few default cells; drift at rest and the acceptance of every state of charge are statements about all arguments and all numbers of steps.", "anchors": ["src/cells/Cell_ECM/Cell_ECM.hpp: Cell_ECM, V, validStates, timeStep_CC"]}
