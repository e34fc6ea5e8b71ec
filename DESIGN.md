# Formal model of SimToolbox: design

The C++ source in /repo is read as text only; nothing is built or run.  What is
proved is about the Gallina model in `rocq/theories`.  The tie between model and
code is the citation (file and lines) carried by every model definition.

`properties.jsonl` states the properties, `MANIFEST.json` maps each to its
theorems, `seeded/LOG.jsonl` records the wrong programs the theorems were tried
against.

## Layout

| file pattern | content |
|---|---|
| `<Area>Model.v` | executable model, function by function, each definition citing file and lines; no proofs |
| `<Area>Spec.v`  | small independent specification, no reference to the model's helpers |
| `<Area>Proofs.v` (and `LinProofs`, `MobProofs`, `QueueProofs`, `QPTerm`, ...) | lemmas |
| `<Area>Props.v` | the property theorems (`exact lemma`), examples, `Print Assumptions` |
| `Outcome.v`, `ListUtil.v`, `Overlay.v`, `F64.v`, `Arith.v` | outcome monad, list facts, buffers with displacements, binary64, arithmetic interface |

A theorem named `Cnn_..._refuted` has the form `exists x, ~ claim x` (or shows the
stated bad outcome on a concrete input): the code does not do what one would
expect.  Each is a finding, listed below.  `Cnn_example...` are concrete runs.

## Modelling conventions

* **Memory.**  Arrays and vectors are lists; access goes through `mread`/`mwrite`,
  which give the outcome `UB` outside the list.  Signed overflow is `UB` where a
  property depends on it.  A failed `assert` in code that the build compiles with
  assertions is `UB` too.  `std::exit(1)` and `std::abort` are `None` (or the
  constructor `Exit1`), an uncaught exception is `Thrown`.
* **Integers.**  `int` and `size_t` are unbounded unless the property is about
  their range; then the range check or the wrap (`mod 2^32`, `mod 2^64`) is
  written out.
* **Floating point.**  Numeric code is written once over the record `arith`
  (`Arith.v`) and used with two instances: exact reals (`R_arith`, `Coq.Reals`) and
  IEEE binary64 (`F_arith`, Flocq `BinarySingleNaN`, round to nearest even).  A
  theorem says which: "any arithmetic", reals, or doubles.  For most numeric
  properties the universal statement is about reals, and counterexamples in
  doubles are recorded where rounding breaks it.  `pow(x,2)` is `x*x`.  Fused
  multiply-add, extended precision and vectorised summation orders are ignored,
  except where a theorem quantifies over the order.
* **MPI.**  A collective is a pure function on the list of all ranks' arguments, as
  in the MPI standard (alltoall is a transpose, allgatherv concatenates, scan is a
  prefix sum).  Mismatching counts are `UB`.  Communication errors, deadlock and
  message order are not modelled.
* **OpenMP.**  A parallel loop runs its iterations in an order given as an argument;
  theorems quantify over all permutations.  A reduction takes an arbitrary split of
  the data and an arbitrary order of combination.  Iterations are atomic: data
  races inside an iteration are excluded by reading the code, not by proof.
* **Randomness.**  Draws are arguments, universally quantified.
* **External libraries.**  Only the contract used is modelled: as a documented pure
  function, or as an oracle over which the theorem quantifies.
* **Unbounded loops.**  Fuel; running out is the outcome `NoFuel`.  Theorems state
  for which inputs enough fuel exists, or start from a finished run.
* **Elements without a code counterpart** (monad operations, loop combinators) say so
  in their comment and cite where they are used.

## Trusted base

* The kernel of Coq 8.16.1, including `vm_compute`.  No kernel check is switched
  off, no axiom is declared, there are no functors or module types, no plugin.
* Axioms of the standard library, and no others (full list at the end of this file):
  `ClassicalDedekindReals.sig_forall_dec`, `ClassicalDedekindReals.sig_not_dec`,
  `FunctionalExtensionality.functional_extensionality_dep` (all from `Coq.Reals`) and
  `Classical_Prop.classic` (through `Coq.Reals` and Flocq).
* The definitions of binary64 in Flocq (definitions only) and our literals: constants
  such as 0.3 or 1e-12 are written as `m * 2^e`; several are checked against the
  decimal text by a lemma that they are nearest.
* Our reading of the C++ source and of the libraries below.

| library | what is assumed |
|---|---|
| MPI | the standard's meaning of the collectives used; a matching receive gets the message sent |
| Tpetra / Kokkos | contiguous maps by prefix sums; a CRS matrix is its rows; `apply`, `update`, `dot`, `norm2`, `normInf`, transpose by their mathematical meaning; host views are arrays |
| Belos (Krylov solver) | nothing: its answer is an arbitrary vector |
| Zoltan_DD | a directory maps each registered key to its last registered datum; an unknown key leaves the datum unspecified |
| Eigen | 3-vectors, quaternions, `normalized` (division by the norm when it is positive), `FromTwoVectors`, `toRotationMatrix` by formula; the SVD branch of `FromTwoVectors` is an oracle giving a unit vector orthogonal to both |
| TRNG | an engine is a position in a fixed sequence; `split(n, i)` selects every n-th number starting at i |
| yaml-cpp | a document is its node tree; scalar conversion is an oracle |
| msgpack-c | any codec with round trip and self-delimiting messages; plus a concrete subset of the format |
| VTK reader | returns the arrays named in the file; the merged pieces in order |
| `std::sto*`, `printf` of numbers | oracles or decimal rendering of integers |
| `std::sort`, `std::unique`, `std::stable_sort` | their specification |
| C library `sin`, `cos`, `acos`, `log`, `sqrt` | real functions in the theorems over reals |

## What is modelled, by area

| area (files) | modelled | left out |
|---|---|---|
| Base64 (`Util/Base64.*`) | all four codecs, both decode modes, `getBase64FromVector` | machine endianness other than little |
| Sort (`Util/SortUtil.hpp`) | `sortDataByTag` and helpers | - |
| Comm, MPI (`MPI/CommMPI.hpp`) | all-to-all exchange, forward and reverse scatter | `MPI_Datatype` of the elements |
| Points, Dist (`Util/PointDistribution.cpp`) | distribution, collection, layouts, error check, affine map | reading point files, dumping them (see Dump), console output |
| Particle, Exchange, Geo (`FDPS/particle_system.hpp`, `Util/GeoUtil.hpp`) | exchange of particles, sampling, removal, periodic adjustment, images, random points | ASCII and binary file I/O of FDPS |
| Domain, Box (`FDPS/domain_info.hpp`, `setDomainInfo`) | number of domains per axis, decomposition from samples, smoothing, boundary flags | timing-weighted sampling, 2-D build |
| Morton, Radix (`FDPS/key.hpp`, `FDPS/sort.hpp`) | keys, both key widths, threaded LSD radix sort | - |
| Tree (`FDPS/tree_for_force_utils.hpp`, `tree_walk.hpp`, `tree.hpp`, `orthotope3.hpp`, `tree_for_force_impl.hpp`) | octree construction, boxes, groups, interaction lists for symmetric short range search | long range modes, the abort of `ReallocatableArray` at its size limit |
| Exchange (`FDPS/tree_for_force_impl.hpp`, `tree_for_force_utils.hpp`, `tree_for_force_utils2.hpp`) | images of domains, both rounds of the exchange for symmetric short range search, shifting, recovery of image numbers, counts and displacements of the communication | the reuse-list mode, other search modes, 32-bit overflow of counts; the key function is a parameter (fixed in Call) |
| Call (`FDPS/tree_for_force.hpp`, `tree_for_force_impl.hpp`, `tree_for_force_impl_force.hpp`) | `calcForceAll` on all ranks: root cell, keys, both sorts, trees, exchange, groups, lists, calls of the functor per thread, forces in original order | reuse and long range modes, `clear_force = false`, counters and profile |
| Index, Link (`SylinderSystem.cpp`, `Trilinos/ZDD.hpp`) | ids, indices, maps, links, directory, bilateral link constraints | Zoltan internals |
| Rng (`Util/TRngPool.hpp`) | stream selection and draws | distributions themselves |
| Con (`Constraint/ConstraintBlock.hpp`, `ConstraintCollector.cpp`) | blocks, queues, matrix, vectors, stress sums, write back | Tpetra internals |
| QP, Newton, Lin (`Constraint/*Solver.cpp`, `ConstraintOperator.cpp`, `Collision/CPSolver.cpp`) | projected gradient (BB and accelerated), LCP variants, minimum-map Newton, residuals, history, return codes, the operator | timers, logging, the random LCP test driver |
| Vec, Syl, Mob (`Util/EigenDef.hpp`, `EquatnHelper.hpp`, `Sylinder/Sylinder.*`, `calcMobMatrix`) | quaternion algebra, rotation step, drag, mobility | - |
| Boundary (`Boundary/Boundary.cpp`, `collectBoundaryCollision`) | the three shapes, projection, collection | `echo` |
| Bcheck (`Boundary::check`) | the three tests of a projection | what it prints |
| Seg, Near (`Collision/DCPQuery.hpp`, `Sylinder/SylinderNear.hpp`) | both distance queries, pair functor, contact blocks, contact stress, search radius | assertions (modelled separately) |
| Step (`SylinderSystem.cpp` time step) | Brownian and non-Brownian velocities, totals, Euler step, preparation | timing output |
| Pipe (`SylinderSystem.cpp` prepareStep, collectPairCollision) | composition of box, decomposition, exchange, preparation, numbering and contact search over all ranks | mobility operator, logging |
| Whole (`SylinderSystem.cpp` runStep, resolveConstraints on all ranks, `ConstraintSolver.cpp`) | mobility of all ranks, constraint matrix of all ranks, solver, write-back, stored forces, motion; collection of pair, boundary and link blocks in sequence (Full: with all three collectors of the code) | timers, logging |
| Sim (`SylinderSystem_main.cpp` main loop) | initialize's distribution, then prepareStep and runStep until timeTotal, with everything of Pipe, Whole and Full | output files, calcOrderParameter, calcConStress, timing summary (they change nothing of the state) |
| Run, Vtp (`SylinderSystem_main.cpp`, result files, `Util/IOHelper.hpp`) | snapshot schedule, file names, order of file effects with crashes, array packing, schema, restart | disk errors, `mkdir` failures (see Dir) |
| Yaml, Cmd (`Util/YamlHelper.hpp`, `SylinderConfig.cpp`, `Util/cmdparser.hpp`) | reading of every key, boundaries, command line state machine | help texts, `NumericalBase` |
| CmdMsg (`cmdparser.hpp`) | usage text, messages, help on and off | NumericalBase, output of other callbacks, formatting of floating point numbers |
| Buf (`Util/Buffer.hpp`) | buffer over an abstract codec, MessagePack subset | maps, binary and extension types |
| CallOpen (`calcForceAll`, as above) | the root cell and the whole search in doubles without periodic axes | periodic axes in doubles |
| CallBall (`calcForceAll` with `CalcSylinderNearForce`) | contacts of spheres in doubles without periodic axes, on all ranks | contacts of long objects in doubles |
| Mix, MixRank (`MPI/MixPairInteraction.hpp`) | packing of two kinds, dispatch by kind, write back; all ranks with the tree of Call | `updateTree`, `dumpSystem` |
| MixOpen (`MPI/MixPairInteraction.hpp`) | the same in doubles without periodic axes | periodic axes in doubles |
| Stat (`SylinderSystem.cpp`) | bounding box, order parameters, volume fraction | console output |
| Log (`SylinderSystem::calcConStress`) | the two stress records over all ranks | the text of the log lines |
| Prob (`BCQPSolver.cpp`, `CPSolver.cpp`) | random test matrices and bounds; local storage and column map | random devices, Tpetra inside |
| LcpRep (`CPSolver.cpp`) | choice of solvers, report of test_LCP over the ranks | solvers (see QP), clock, text format |
| TreeCap (`SylinderSystem.cpp`) | setTreeSylinder and its callers | what FDPS does with the size (see Tree) |
| Dump (`Util/PointDistribution.cpp`) | dumpPoints on all ranks with every interleaving, the file character by character | a file that cannot be opened |
| Ortho (`FDPS/orthotope3.hpp`, `FDPS/ps_defs.hpp`) | contained of a box, centre and half length, the five functions for the least squared distance | the two-dimensional variants, rounding of distances that are not zero |
| BinText (`FDPS/ps_defs.hpp`) | GetBinString of 32 and 64 bits | pointers that cannot be read |
| BoxFile (`SylinderSystem::writeBox`) | the file character by character, `%g` on doubles | storage as float in the reader |
| Dir (`Util/IOHelper.hpp`, `SylinderSystem::writeResult`) | makeSubFolder on all ranks, folders of a whole run | links and `..` in paths |
| Init (`SylinderSystem.cpp`) | initial configuration from the settings | reading of the file (see Asc) |
| Pool (`FDPS/memory_pool.hpp`, `FDPS/reallocatable_array.hpp`) | the pool with its block, segments and emergency buffers, byte by byte, and all calls of arrays that use it | failing `malloc`; `dump`, statistics, sanity checks; calls from threads outside of the critical sections |
| Asc (`Sylinder.cpp` writeAscii, `SylinderSystem.cpp` writeAscii, setInitialFromFile) | `%.8g`, `%lf`, `>>` for numbers and characters on doubles bit by bit, lines, comments, the object made from a line | failing files; locale |
| Xml (`Util/IOHelper.hpp`, `writeVTP`, `writePVTP`) | the files character by character, memory of the arrays, double to float | VTR and VTI heads, NaN payloads, big-endian machines |
| Mt (`FDPS/MT.hpp`) | seeding, the recurrence in place, tempering, all functions for integers and doubles | `init_by_array` (never called); `MTTS` (same code) |

Not modelled at all: the unit tests (`*_test.cpp`), `spdlog` (third party), loggers and
timers, the Gauss-Legendre table, `Trilinos/Preconditioner.hpp`, and of FDPS
matrices, profile, two-dimensional classes, long range trees.

## Findings

Places where the code does not do what its users or comments expect.  Most have a
`_refuted` theorem; the others are visible in the theorem's hypotheses or are noted from
reading.  The first group are outright defects.

**Defects**

* C32 `ComputeMinimumParameters` takes the midpoint branch at tight corners: the
  reported distance can be 0.7071 where the true one is 0.5 (`C32_corner_refuted`).
  Nearly parallel crossing segments are reported apart (`C32_crossing_refuted`); in debug
  builds the assertion in `GetClampedRoot` fails on ordinary segments (`C32_assert_refuted`).
* C36 `getRSearch` adds `2*lengthCollision` where `2*radiusCollision` is meant; overlapping
  pairs can be missed (`C36_ratio_refuted`).
* C38 In monolayer mode the Brownian out-of-plane velocity is removed from the solver input
  but not from the objects (`C38_monolayer_refuted`).  Immovable objects move if a velocity
  is prescribed for them.
* C58 A vertical object in monolayer mode keeps its direction and its quaternion loses unit
  length (`C58_upright_refuted`).
* C49 The high corner of the bounding box starts from `numeric_limits<double>::min()`, so
  for negative coordinates it is 2^-1022 (`C49_high_refuted`).
* C39 `timeSnap=0.3, dt=0.1` gives a snapshot every 2 steps (`C39_decimal_refuted`);
  `timeSnap < dt` divides by zero (`C39_short_refuted`).
* C40 The restart file is truncated before it is rewritten (`C40_emptied_refuted`); rank 0
  names a snapshot other ranks have not finished (`C40_two_ranks_refuted`); with another
  number of ranks the folder is not found (`C40_other_ranks_refuted`).
* C42 Restart loses the rotation about the own axis (`C42_roll_refuted`).
* C14 The status of the directory lookup is ignored: a link to an unknown id uses junk data
  (`C14_unknown_reported_refuted`).
* C28 The threshold for sphere-like objects uses `radiusCollision` while their radius
  includes half the length; overlaps are missed (`C28_short_refuted`).
* C07 A particle on the upper face of the root box passes the closed-box test and the search
  runs off the array (`C07_upper_face_refuted`); a NaN particle is lost (`C07_nan_refuted`).
* C10 With fewer samples than ranks, `pos_sample[-1]` is read (`C10_few_samples_refuted`).
* C61 `lsdSort` ignores `first` when indexing (`C61_first_refuted`); a smaller team writes
  outside the array (`C61_small_team_refuted`).
* C62 `TreeForForce::initialize` accepts a leaf limit of 0; one particle then leads to an
  out-of-bounds access (`C62_leaf_limit_refuted`).  `l+r` in `GetPartitionID` overflows beyond 2^30
  particles.
* C64 A group limit below the leaf limit is accepted too; the group construction then visits cells
  that were never written (`C64_limits_refuted`).
* `FDPS/tree_for_force_impl.hpp:460-465` `#pragma omp parallel` without `for`: every thread writes
  all of `adr_org_from_adr_sorted_glb_` (same values, still a data race; by reading).
* C55 A zero true value makes equal vectors fail and makes the greatest relative error forget
  earlier entries (`C55_zero_entry_refuted`, `C55_forget_refuted`); the verdict compares the
  sum of deviations, not their mean.
* `Util/EigenDef.hpp:82-87` `copySwap` does not swap; `Util/IOHelper.hpp:63-75` tests `errno`
  even if `mkdir` succeeded; `FDPS/domain_info.hpp:259` uses ny for the third axis (all by
  reading).

**Surprising interfaces**

* C02 With the end mark the decoded data has an extra zero byte; a bound of 0 means no bound.
* C03 The 32-bit header wraps for blocks of 2^32 bytes.
* C06, C11, C41 `int` overflow outside stated ranges; C11 an id can be reused after removal.
* C13 Reloading the link file does not clear the reverse map; duplicates are kept although
  the header comment announces their removal.
* C15 Result buffers of `find` are never shrunk.
* C18 A thread id beyond the thread count at construction is undefined behaviour.
* C19 A rank without objects relies on the map's minimum and maximum giving an empty range;
  `ConstraintCollector::valid()` returns `empty()`.
* C22, C23, C24 Residual tests have a margin of 100 epsilon, narrow boxes give a "projection
  error" exit; return code 0 is also given when iterations run out; the infeasible guess can
  be returned; APGD may return the all-ones vector, and its first history record has residual
  0 although none was evaluated; an all-ones guess makes it divide 0/0.
* C25 Force and velocity do not match when the solver did not converge.
  `ConstraintSolver::setup` resets the control parameters.  `CPMatOp::apply` and the mmNewton
  operator ignore alpha and beta.
* C52 The residual tested is that of the previous iterate; `nabla_H` is `J H`, not `J^T H`;
  code 1 leaves the result unchanged.
* C27 On a tube's axis or at a sphere's centre the projection is wrong or NaN.  C28 An end
  exactly on the surface gets a NaN normal.  C35 Crossing cores give zero normals.
* C29 Angular velocities below 2^-23 are ignored whatever the time step.
* C31 For length between 2 and 4.48 radii the parallel drag exceeds the perpendicular one;
  drag jumps at length 2 radii.
* C43 A boundary of unknown type is dropped silently; a scalar given for a list reads as the
  empty list; a map with keys 0, 1, 2 is accepted as an array.
* C44 The constructor does not empty the vector although its comment says so.
* C46 Unknown options are taken as values where possible; options with only a long name act
  as the default option; a second `run()` toggles flags; a required flag reads an
  uninitialised bool.
* C53 Periodicity flags are only ever set, never cleared; an axis with equal edges stays
  unbounded.
* C54 Rejection of lengths never ends if no draw is short enough; `initOrient=(0,0,0)` gives a
  non-unit quaternion; the log-normal mean is given the plain length.

**Rounding**

* C16 -1e-20 wraps to 1.0 in [0,1); a position 3.1 in [0.4,3.1) moves below 0.4; huge
  coordinates never finish.
* C17 The nearest image can be farther than half a box, and the run exits.
* C10 Smoothing with a factor other than 1 moves the outer boundary.
* C26 Stress sums depend on the schedule.
* C47 A position just inside the upper face rounds to grid coordinate 2^21, whose key is that of
  the opposite side.
* C54 A centre can round onto the upper face.
* C65 A particle at distance just below its search radius can be missed (`C65_margin_refuted`); the
  margin needed is at most 2^-50 relative.

* C66, C67 With a periodic axis, a particle within an ulp of the upper face rounds onto the lower
  face of the next box when it is shifted for sending.  The receiving rank finds image 0 instead of
  -1 for it and returns its neighbour across the boundary unshifted, on the wrong side of the box:
  the pair is missed.
* C67 The run detection starts from the image number (-9999, -9999, -9999); an image with that very
  number would use `back()` of an empty vector (excluded by `reachable`).  A particle outside the
  box along an open axis makes CalcIDOfImageDomain loop forever.
* C69 In doubles the extent of all search spheres can be lost to rounding (a lone particle at 1 with
  radius 2^-60): the root cell has length 0, the key factor is infinite and the conversion of the
  NaN to an integer is undefined.
* C70 The counters of the profile in `calcForce` (`FDPS/tree_for_force_impl_force.hpp:1311-1329`) are
  written by all threads without protection: a data race, which does not touch forces or calls.
* C71 A rod is never in contact with its own periodic image: the functor requires different ids.
* C73 In a monolayer, prepareStep sets the height of all objects after exchangeSylinder
  (`Sylinder/SylinderSystem.cpp:892-918`).  With more than one domain along z an object can then be
  outside the domain of its rank, and two overlapping objects on ranks whose domains are not in
  reach of each other's search spheres are not found as a contact (computed for eight ranks).
* C77 `~ReallocatableArray` calls `MemoryPool::freeMem(id_mpool_)` without the check that is
  commented out above it (`FDPS/reallocatable_array.hpp:173-176`).  After `freeMem`, or for an array
  of the pool that never got memory, `id_mpool_` is -1 and `cap_per_seg_[-1]` is read
  (`FDPS/memory_pool.hpp:243`).  exchangeParticle does this on every call
  (`FDPS/particle_system.hpp:639-646, 754-761`), and the tree with its `tp_buf`
  (`FDPS/tree_for_force_impl.hpp:270-296, 449-465`).  In practice the read hits the member before the table.
* C77 `MemoryPool::freeMem` reads `cap_per_seg_[id_seg]` before it tests for ids of emergency
  buffers, which are 10000 and more (`FDPS/memory_pool.hpp:243-260`).  An array that got an emergency buffer
  in a parallel region and is freed, destroyed or grows there reads out of bounds; its buffer is
  never marked as free unless that read happens to give a positive number.
* C77 `reserve` sets `capacity_` before `ReallocInner`, which copies `capacity_` elements from the old,
  smaller memory when the pool is used (`FDPS/reallocatable_array.hpp:200-222, 117-121`).  The only callers
  in the repository use arrays outside of the pool.
* C77 `reserveAtLeast` on an array of the pool without memory frees segment -1.
* C77 Free segments of the pool are never joined, and only those at the tail are dropped, so that
  the table of 10000 segments can fill up with small free ones; alloc then stops with an assertion.
* C78 `setInitialFromFile` reads the optional group with `>>` on top of the default -1; when something that is not a number
  follows (a remark), C++11 sets it to 0 (`Sylinder/SylinderSystem.cpp:326-328`, `C78_remark_refuted`).
* C78 No state of the stream is tested while a line is read (`Sylinder/SylinderSystem.cpp:319-325`).  A line that is too
  short, or one with `inf` or `nan` as written by `writeAscii` for such an object, uses uninitialised numbers (`C78_infinite_refuted`).
* C78 Collision radius and collision length are not in the text file; a restart from it sets them to radius and length.
* C80 Forces and velocities are stored as floats: a finite number from 2^128 on is infinite in the file, one below 2^-150 is zero
  (`C80_large_refuted`, `C80_small_refuted`).
* C80 Names of arrays and files are not escaped; a prefix with `"`, `<` or `&` gives a file that is not XML (`C80_names_refuted`).
* C81 `MixPairInteraction` does not bring particles to the rank of their domain. With a target on another rank a pair across the
  periodic face is missed (`C81_homes_refuted`); the comment of the class says that it does not exchange particles, not that the pair is lost.
* C83 `Boundary::check` accepts points that are not the nearest ones (`C83_nearest_refuted`) and, since it compares with `>`, vectors
  that are not numbers, such as the projection of the centre of a sphere (`C83_nan_refuted`). It rejects every point on the surface
  (`C83_accepts`), and its tolerance of 2.2e-12 is absolute, so that with a radius of 40000 the rounding of `project` is an error
  (`C83_large_refuted`).
* C84 With `KBT: 0` the stress records ColXF and BiXF are NaN or infinite (`C84_athermal_refuted`).
* C86 The test problems drop entries of at most 1e-7 and use row-local column numbers as indices of a column map from which unused
  columns are removed. With `diagonal = 0` the matrix can lose its definiteness (`C86_flat_refuted`), and if a column is lost the indices no
  longer fit the map (`C86_column_refuted`; inside the range they would name the wrong column).
* C88 The report of `test_LCP` does not check complementarity (the line that did is commented out with "stuck for >=2 processors"; it
  called a collective on rank 0 only), so x = y = 1 looks like a solution (`C88_complementary_refuted`). NaN passes
  (`C88_nan_refuted`), and a choice outside 0 to 4 reports on x = 0 without a warning (`C88_unlisted`).
* C89 `2 * nGlobal` is an `int` product: from 2^30 objects on it overflows, although FDPS takes 64 bit (`C89_limit_refuted`).
* C90 `set_default<T>(false)` declares an optional option without a value; for numbers `--help` then prints an indeterminate value
  (`C90_default_refuted`).
* C91 `makeSubFolder` returns when a plain file has the name of the folder (`C91_file_refuted`); `reinitialize` does not make `./result`,
  so a restart in a folder without it ends at the first snapshot (`C91_restart`).
* C92 `%g` keeps six digits: a box of width 1 at 1000000 is flat in simBox.vtk (`C92_flat_refuted`). The result of `fopen` is not tested
  (`C92_closed_refuted`), so that with a plain file in the place of `./result` (C91) the behaviour is undefined.
* C93 `dumpPoints` writes `%6f`: numbers below half a millionth become 0 (`C93_small_refuted`); a coordinate too many is dropped (`C93_leftover_refuted`);
  the result of `fopen` is not tested.
* C94 `contained(box)` tests whether boxes meet, not whether one contains the other (`C94_contained_refuted`). `GetDistanceMinSq` with a period returns 0 along an axis
  on which the centres are more than a period apart (`C94_periodic_far_refuted`); without one it may be positive for boxes of doubles that touch
  (`C94_double_centres_refuted`), where `getDistanceMinSQ` is exactly 0. The latter may be 0 for boxes that are separate (`C94_double_separate_refuted`: underflow).

## Wrong programs

`seeded/LOG.jsonl` has one line per wrong model tried (in a scratch copy): the definition, the
edit, the claims that broke, the theorems that failed, and theorems tightened because of it.
The edits are operator and constant changes at random places of every model file plus
hand-made mistakes.  Edits nothing noticed are kept in the log with the reason: dead code
(defaults never read), equivalent programs, or a gap that was then closed (`tightened`).

A theorem is listed as failed when its proof, or the proof of a lemma it uses, no longer goes
through for the edited model.  That is not a proof that its statement became false: the statement may
still hold and only the script be broken.  So the list of failed theorems of an edit can be too
long, and an edit counted as noticed may be equivalent to the original, most likely among the edits
that swap `<?`, `<=?` and `=?` where the two differ only for values that do not occur.  Those of that kind
with no Example among the failed theorems were looked at by eye; the ones found to be equivalent have empty
`claims_broken` and say so in `note`.  Where an Example that is checked by computing alone is among the failed theorems the edit did
change the result.

## Plan per property

| id | model | proof |
|---|---|---|
| C01 | the four table-driven group codecs and both loops of Base64.hpp | round trip by induction over 3-byte groups; byte-level lemmas by finite sweep over 256/64 values; against an RFC-style bit-string specification |
| C02 | the second decode mode | induction over groups; the end-mark case is refuted with a witness (extra zero byte), positive theorem without end mark |
| C03 | getBase64FromVector with the 32-bit header | composition of C01 with little-endian header; refuted at 2^32 |
| C04 | index vector, stable sort, gather | stable sort modelled as stable merge/insertion sort; uniqueness of the stable sorted permutation shows the choice of algorithm is immaterial |
| C05 | counts, displacements, alltoall, alltoallv buffers | slices of the displacement-addressed buffers; transpose |
| C06 | distributePts, collectPts, collectPtsAll | same |
| C07 | exchangeParticle on all ranks | counting pass + fill pass refine to "filter by destination"; permutation |
| C08 | swap sampling and undo | induction on the swap list: swaps are involutions |
| C09 | sort/unique/swap-with-last | loop invariant |
| C10 | SetNumberOfDomainMultiDimension; decomposeDomain boundaries, smoothing | arithmetic; monotone boundary sequences; convex combination |
| C11 | addNewSylinder on all ranks | invariant over operation histories |
| C12 | updateSylinderMap via prefix sums | arithmetic on prefix sums |
| C13 | link maps on all ranks | invariant over histories |
| C14 | collectLinkBilateral | per-link block, counting |
| C15 | ZDD as directory contract (Zoltan) | the directory is the external contract; buildIndex/find logic on top |
| C16 | wrap loops generic in arithmetic | reals: floor argument; binary64: refutation of `< ub` and bounds proved with Flocq |
| C17 | nearest image | reals |
| C18 | leapfrog split | number theory: mixed radix bijection |
| C19 | buildConIndex, buildConstraintMatrixVector | row/column index arithmetic and sum over blocks |
| C20 | writeBackGamma | same indexing |
| C21 | ConstraintOperator::apply over finite vectors of reals | linear algebra |
| C22 | projection residual | convex analysis in R^n, variational inequality |
| C23 | solveBBPGD as fuelled loop with iterate history | loop invariant; refuted parts recorded |
| C24 | solveAPGD | loop invariant |
| C25 | solveConstraints | linearity |
| C26 | sumLocalConstraintStress | commutative fold, permutation invariance |
| C27 | Boundary.cpp | real geometry |
| C28 | collectBoundaryCollision | case analysis; refuted for large sphere |
| C29 | rotateEquatn | quaternion algebra |
| C30 | calcMobMatrix | 3x3 algebra |
| C31 | calcDragCoeff | real analysis (ln) |
| C32 | DCPQuery | real algebra, KKT of a convex quadratic on the square |
| C33 | DistPointSeg | convex quadratic on the segment |
| C34 | pair functor | case analysis + counting over deliveries |
| C35 | sp_sp, sp_sy, sy_sy | vector algebra |
| C36 | getRSearch | triangle inequality; refuted |
| C37 | collideStress | algebra |
| C38 | step bookkeeping | state machine; refuted for the monolayer case |
| C39 | snapshot schedule | integers + binary64 refutation |
| C40 | write/restart with crash points over a file-system trace | transition system, invariant; refuted orderings |
| C41 | folder/file names | strings, decimal rendering injective |
| C42 | VTK packing and schema | list index arithmetic |
| C43 | readConfig and SylinderConfig | finite map documents |
| C44 | Buffer over an abstract self-delimiting codec | refinement to a queue with cursor |
| C45 | two-block maps | prefix sums |
| C46 | cmdparser run | state machine over tokens |
| C47 | Morton | bit-level (testbit) lemmas |
| C48 | MixPairInteraction | list indices |
| C49 | calcBoundingBox | fold min/max; refuted for negative boxes |
| C50 | calcOrderParameter | real algebra |
| C51 | ConstraintBlock | direct |
| C52 | LCP_mmNewton | loop invariant; refutation of the residual test on the stale iterate |
| C53 | setDomainInfo | finite case analysis + order of calls |
| C54 | setInitialFromConfig | intervals |
| C55 | fixedPoints etc. | index arithmetic |
| C56 | EquatnHelper rate matrices | ring identities over reals |
| C57 | calcVelocityBrown | covariance as algebra on the Cholesky factor |
| C58 | prepareStep on the objects | case analysis; refuted for upright objects |
| C59 | ConstraintCollector::writeVTP/writePVTP | index arithmetic as C42 |
| C60 | calcVolFrac | permutation-invariant real sums |
| C61 | lsdSort with thread counts | stable counting sort per digit, uniqueness of the stable order |
| C62 | LinkCell/LinkCellST, GetPartitionID | invariant of the level loop: every cell below the frontier is an octree up to pending leaves; binary search on a sorted digit |
| C63 | CalcMoment, MomentSearchInAndOut, F64ort merging | hulls of boxes, levels bottom up; generic in an order-reflecting arithmetic |
| C64 | MakeIPGroupShort | induction on the octree; a split cell at level 21 has one key |
| C65 | interaction lists, whole search | box distance is below point distance; rounding margin in doubles; composition with C36 |
| C66 | CalcNumberAndShiftOfImageDomain, CalcIDOfImageDomain | the shells of shifts stop no earlier than the farthest touching image; reduction of a coordinate by whole boxes |
| C67 | exchangeLocalEssentialTree with symmetric scatter search | arrays of counts as sums; walk of the tree of a run against boxes; both rounds of the exchange (send to reached domains, then return of what the received particles reach) |
| C68 | exchange, then interaction lists | composition of C67, C65 and C36 |
| C69 | setRootCell, calcCenterAndLengthOfRootCellImpl, MortonKey | the number of shells is at least the farthest reached image; midpoints and extents; the factor 1.000001 keeps keys below the last grid line |
| C70 | calcForceAll | composition of C61, C62, C67, C65; permutations between original and sorted order; groups tile the particles, so forces are written once |
| C71 | calcForceAll with the contact functor | product of targets and tags is duplicate free; composition of C70, C36 and C34 |
| C72 | initialize, prepareStep on all ranks | composition of the lemmas for the box, the decomposition, the exchange, the preparation and the numbering: boxing is idempotent, enough samples are drawn, the exchange settles, the preparation keeps positions |
| C73 | prepareStep, then collectPairCollision | settled objects with fit sizes satisfy the premises of C71 (arena, room, proper rods) |
| C74 | resolveConstraints and runStep on all ranks | the matrix built on all ranks is the stack of the rank matrices; the mobility is symmetric positive semidefinite by blocks; the solver residual bounds each row; each row is the opening rate of its block; loads are columns of D; composition with the step lemmas |
| C75 | prepareStep, then runStep with the blocks collected by resolveConstraints | the collectors of pairs, walls and links depend only on what the step keeps, and give blocks as C74 needs them; for spheres the gap is a projection of the distance between centres, so the first-order gap bounds the distance after the step from below |
| C76 | the main loop | the state after a step meets the premises of the next one (sizes, ids and domains are kept, directions stay unit); more fuel does not change a result that is there, so a bound for each step suffices; induction over the steps |
| C77 | the memory pool | invariant: segments fill the block one after the other, every segment or buffer in use belongs to the array that points to it and the other way round; an array that is being given memory is exempt; each small step (move the block, add, drop, reuse, release a segment, move a buffer, write) keeps the invariant and the bytes of all other arrays; a second invariant, that the last segment is in use or there are buffers, gives the empty pool |
| C78 | text snapshots | digits: the scaled number rounded to an integer has eight digits, also after a carry; the text is parsed back to the same integer and exponent, whose rounding is within one rounding error; equal integers print equally (fixpoint) because the error of reading is far below half a unit of the eighth digit; lines contain no newline, so getline splits them as written |
| C79 | the random number generator | the state after k calls is the window of 624 words of the stream that ends at the current block; twisting in place reads words of the old and the new block as the recurrence says; tempering and the seeding step are inverted on 32 bits, so equal outputs give equal states and equal seeds; sums and products with powers of two are exact in doubles |
| C80 | text of VTK files | a text "emits" a list of nodes if the reader, inside of any open element, goes over it and adds them; texts in sequence emit in sequence, an element around a text emits one node; attributes parse by induction; base64 by C03; float: widening is exact and narrowing a widened number gives it back, bits of floats by Flocq; middle of the ends: four roundings |
| C81 | mixed targets and sources on all ranks | the wrapped position is the only image in the box (C16), so the particles after updateSystem are determined; the tree sees positions and radii only, so C70 applies to items that carry a MixEPI and a MixEPJ; of the images in the list of a group the kernel keeps the near sources, and all near ones are seen; for two distributions both lists of contributions are permutations of one list over all particles and the images that occur |
| C82 | the whole search in doubles | root cell: each sum has a relative error of 2^-53, so centre, half length and factor are known up to a few units of the largest coordinate; the cell is made larger by a millionth, which is more than these errors when the extent is at least 2^-26 of the coordinates, and the extent is at least twice the radius of the particle named; the rest is C67 and C68 in doubles put together as for C70 |
| C83 | the self test of projections | Cauchy's inequality turns the third test into a bound on the cosine; project gives delta = distance times the unit normal (C27) |
| C84 | the stress records | C26 on each rank, sums over ranks; C20 for the magnitudes |
| C85 | contacts of spheres in doubles | each operation has a relative error of 2^-53 (square roots included), so the separation is right up to 15 of these and below the buffer, and the search radius of the larger sphere exceeds the distance; the rest is C82 and the argument of C71; ids are different, so blocks of different pairs have different ids |
| C86 | the random test problem | the local storage is a list of pairs cut by the row pointers; the sorted column map without repetitions is all columns of the rank if none is lost; x^T A x is a sum of squares plus diagonal times the square of x, and the dropped part is at most n 1e-7 times the square of x |
| C87 | two kinds of particles in doubles | inside the box the wrap returns the very same double; the tree sees positions and radii only, so C82 applies to the mixed particles; then as for C81, with places (rank, number of the source) as names; the accepted sources are a permutation of a filter of all sources, which does not know about ranks |
| C88 | the report of the LCP test | a pair of count and error "says" the right thing about a list of entries; one entry, one rank and one reduction each keep this for the list joined so far; negation is exact in doubles, and the largest shortfall is unique |
| C89 | size of the neighbour search tree | three times an int is a double, so the test is exact; invariant: the tree is for at least twice the stored number; each new tree needs growth by half, so powers of 3 and 2 bound the number of trees |
| C90 | texts of the command line parser | the text of an option is lines with known prefixes, splitting at newlines and tabs takes them apart again; run with messages refines run of C46, so its characterisation of the distributed tokens gives the cause; distribution keeps names, defaults and kinds, so help prints what was declared |
| C91 | result folders | the first call makes the folder, all others find it; only the entry of the folder changes, so ./result stays for the later snapshots |
| C92 | file of the box | the integer arithmetic of %g is rounding to nearest even in base 10 with six digits (Flocq FLX), hence monotone with known error; the reader takes the texts off one by one |
| C93 | dumping points | invariant over all interleavings: as long as a rank has not opened the file none is behind the barrier, and afterwards the file is empty or the text of rank 0; numbers as in C78, lines by induction on the points |
| C94 | distance of boxes | per axis: the clear distance of the centres is the least distance of two intervals, for any set of shifts; the fold gives the nearest image; product of two non-positive doubles is never below zero |
| C95 | text of a key | induction on the rounds of the loop: the digits so far are the low bits of the number; order by the highest digit that differs |

## Axioms per theorem

Output of the `Print Assumptions` commands in the `*Props.v` files, grouped.

**No axioms** (157)

C01_encode_is_rfc4648, C01_roundtrip, C01_text_alphabet, C01_text_length, C02_decode_by_input,
C02_decode_by_input_refuted, C02_empty_text_refuted, C02_malformed_stops,
C03_block_self_describing, C03_header_wraps_refuted, C04_idempotent, C04_result_unique,
C04_sorted_stably, C05_delivery, C05_nothing_lost, C05_reply_restores, C06_collect,
C06_collect_all, C07_migration, C07_outside_aborts, C07_upper_face_refuted, C09_remove,
C10_few_samples_refuted, C10_process_grid, C10_tiles, C11_history, C11_insert,
C11_overflow_refuted, C12_global_index, C13_file_roundtrip, C13_history, C13_reload_refuted,
C15_lookup, C18_cover, C18_serial, C18_streams, C18_thread_range, C19_clear, C20_write_back,
C28_collect, C30_assembled, C34_collect, C38_totals, C39_resume, C40_crash, C40_emptied_refuted,
C40_no_number, C40_number, C40_one_rank, C40_other_ranks_refuted, C40_restart, C40_torn,
C40_two_ranks_refuted, C41_folder, C41_names, C41_overflow_refuted, C41_same_folder, C42_piece,
C42_pieces, C43_absent, C43_array, C43_vector, C44_default_refuted, C44_fail, C44_msgpack,
C44_not_empty_refuted, C44_replay, C45_two_block_map, C45_two_block_vector, C45_vector_copy,
C46_absent, C46_assign, C46_help, C46_help_after, C46_help_unplaced_refuted,
C46_long_only_refuted, C46_optional, C46_required_flag_refuted, C46_run, C46_twice_refuted,
C46_unknown_refuted, C46_unplaced, C47_bits, C47_bits_2d, C47_cell, C47_cell_2d, C47_injective,
C47_outside_refuted, C47_prefix, C47_range, C48_force, C48_pairs, C48_source, C48_system,
C51_reverse, C51_stress, C52_products, C53_abort, C53_agree, C54_new, C54_ranks, C55_affine,
C55_count, C55_ranks, C55_size, C58_prepared, C59_piece, C61_first_refuted,
C61_other_deal_refuted, C61_same, C61_small_team_refuted, C61_sort, C62_leaf_limit_refuted,
C62_tree, C77_bare_refuted, C77_buffer_refuted, C77_call, C77_destructor_refuted, C77_element,
C77_released, C77_reserve_refuted, C77_trace, C79_alive, C79_initialize, C79_seeds, C79_stream,
C79_unique, C79_unseeded, C80_con_header, C80_header, C80_names_refuted, C80_parallel,
C80_parallel_points, C84_quiet, C90_default_refuted, C90_disable, C90_empty, C90_help,
C90_help_option, C90_integer, C90_message, C90_refines, C90_usage, C91_errno, C91_fails,
C91_file_refuted, C91_ready, C91_restart, C91_returned, C91_snapshots, C93_leftover_refuted,
C93_mismatch, C93_progress, C95_order32, C95_order64, C95_text32, C95_text64

**`ClassicalDedekindReals.sig_forall_dec`** (1)

C64_groups

**`ClassicalDedekindReals.sig_forall_dec`, `FunctionalExtensionality.functional_extensionality_dep`** (1)

C10_tiles_reals

**`ClassicalDedekindReals.sig_forall_dec`, `ClassicalDedekindReals.sig_not_dec`, `FunctionalExtensionality.functional_extensionality_dep`** (124)

C14_collect, C14_once, C16_adjust, C16_wrap, C17_nearest_image, C19_force, C19_rows, C21_apply,
C21_product, C21_symmetric_psd, C22_complementarity, C22_exact, C22_margin_refuted,
C22_narrow_refuted, C22_near, C22_optimum, C23_converged, C23_outcome, C24_best, C24_converged,
C24_terminates, C25_solve, C25_split, C26_split_independent, C26_stress, C27_constructed,
C27_project, C28_object, C29_axis, C29_histories, C29_length, C29_random, C29_rotate, C29_step,
C29_tiny_refuted, C32_near_minimum, C32_no_zero_division, C32_points, C33_minimum,
C34_exactly_one, C34_pair, C35_balance, C35_block, C36_copies, C36_rods, C36_search,
C37_formula, C37_sphere_axis, C37_spheres, C37_swap, C37_trace, C37_translation,
C38_solver_quiet, C42_perp, C42_restart, C47_below, C47_position, C50_eigenvalues, C50_flip,
C50_mean, C50_polar_bound, C50_split, C50_symmetric, C50_traceless, C51_reverse_load,
C52_constants, C52_direction, C52_run, C52_system, C54_circle, C54_objects, C54_orient_fixed,
C54_orient_random, C54_sphere, C55_points, C55_random, C55_range, C55_report, C55_zero,
C56_cross, C56_psi, C58_monolayer, C60_split, C60_volume, C63_boxes_reals, C65_contacts,
C65_exact, C65_search_reals, C66_images, C66_recovered, C67_exchange, C68_contacts,
C68_neighbours, C69_root_cell, C70_calls, C70_room, C71_contacts, C72_box, C73_collect,
C75_collect, C76_periodic, C76_same_objects, C78_ends, C78_error, C81_forces, C81_ranks,
C83_accepts, C83_meaning, C83_nearest_refuted, C84_record, C84_split, C86_definite,
C86_flat_refuted, C86_operator, C86_symmetric, C94_contained_meets, C94_contained_refuted,
C94_distance, C94_member_distance, C94_periodic_distance, C94_periodic_far_refuted,
C94_periodic_never_more, C94_periodic_point, C94_point_distance

**`ClassicalDedekindReals.sig_forall_dec`, `ClassicalDedekindReals.sig_not_dec`, `Classical_Prop.classic`, `FunctionalExtensionality.functional_extensionality_dep`** (155)

C06_distribute, C06_distribute_collect, C06_distribute_overflow, C06_distribute_refuted,
C07_finite_doubles, C07_nan_refuted, C08_sampling, C10_smoothing_doubles_refuted,
C10_tiles_doubles, C14_unknown_reported_refuted, C16_adjust_doubles, C16_doubles_below_refuted,
C16_doubles_inside, C16_doubles_nontermination_refuted, C16_doubles_upper_edge_refuted,
C16_wrap_doubles, C17_doubles_half_refuted, C22_doubles_refuted, C23_doubles,
C23_exhausted_refuted, C23_infeasible_guess_refuted, C24_doubles, C24_largest,
C24_nothing_evaluated_refuted, C24_ones_refuted, C25_exhausted_refuted,
C26_doubles_schedule_refuted, C27_sphere_centre_refuted, C27_tube_axis_refuted,
C28_on_surface_refuted, C28_short_refuted, C30_action, C30_definite, C30_symmetric, C31_drag,
C31_short_rod_refuted, C32_assert_refuted, C32_corner_refuted, C32_crossing_refuted,
C35_crossing_refuted, C36_ratio_refuted, C38_immovable, C38_mobility_quiet,
C38_monolayer_refuted, C38_parts, C39_decimal_refuted, C39_end, C39_interval,
C39_interval_general, C39_overflow, C39_range, C39_schedule, C39_short_refuted, C40_history,
C42_roll_refuted, C43_boundaries, C43_boundary, C43_constants, C43_load, C43_required,
C43_scalar_vector_refuted, C43_unknown_refuted, C47_edge_refuted, C49_global, C49_high_refuted,
C49_local, C52_code_refuted, C52_doubles_terminates, C53_again_refuted, C54_upper_face_refuted,
C55_forget_refuted, C55_zero_entry_refuted, C57_fluctuation, C57_immovable, C58_upright_refuted,
C63_boxes_doubles, C64_limits_refuted, C65_margin_refuted, C65_search_doubles,
C66_recovered_doubles_refuted, C67_exchange_open, C67_periodic_doubles_refuted,
C68_neighbours_open, C69_lone_doubles_refuted, C72_distribute, C72_prepare,
C73_monolayer_refuted, C73_step, C74_momentum, C74_runs, C74_step, C75_apart, C75_momentum,
C75_prepare, C75_runs, C75_wall, C76_initialize, C76_main_loop, C76_step, C78_default_group,
C78_file, C78_fixpoint, C78_infinite_refuted, C78_number, C78_other_lines, C78_plus,
C78_remark_refuted, C78_time, C79_reals, C79_res53, C79_sample, C80_constraints, C80_file,
C80_float, C80_float_exact, C80_float_twice, C80_large_refuted, C80_objects, C80_restart,
C80_small_refuted, C81_homes_refuted, C82_calls, C82_root_cell, C83_large_refuted,
C83_nan_refuted, C84_athermal_refuted, C85_contacts, C85_once, C86_bounds, C86_column_refuted,
C87_forces, C87_ranks, C88_complementary_refuted, C88_nan_refuted, C88_ranks, C88_report,
C88_stages, C88_unlisted, C88_zero, C89_limit_refuted, C89_room, C89_seldom, C89_uninitialised,
C92_closed_refuted, C92_error, C92_file, C92_flat_refuted, C92_order, C92_wide, C93_file,
C93_small_refuted, C94_double_centres_refuted, C94_double_separate_refuted,
C94_double_symmetric, C94_double_zero
