{"id": "C01", "title": "Base64 round trip", "statement": "For every byte string, base64-encoding it (with or without the end mark) and decoding the produced text while asking for the original number of bytes gives back exactly the original bytes; the text uses only the standard 64-character alphabet plus '=', the number of characters reported equals the number appended, and it is the RFC 4648 text (4*ceil(n/3) characters, plus the 4-character end mark exactly when it is requested and n is a multiple of 3). Text already present in the output string is kept in front.", "quantifier": "all byte strings of any length, both end-mark settings, all prior contents of the output string", "why_tests_cant": "the set of byte strings is infinite, and the three tail cases interact with the end mark and the pre-existing output", "anchors": ["Util/Base64.hpp:kwsysBase64_Encode", "Util/Base64.hpp:kwsysBase64_Decode", "Util/Base64.hpp:B64Util::Encode3/Encode2/Encode1/Decode3", "Util/Base64.cpp"]}
{"id": "C02", "title": "Base64 decode bounded by input length", "statement": "Decoding an encoded, non-empty text while bounding only the number of input characters returns the original bytes whatever follows the text, and their number, plus one zero byte exactly if the text ends in an end mark group; a character outside the alphabet ends the decoding with exactly the bytes of the preceding groups.", "quantifier": "all byte strings, both end-mark settings, all malformed texts whose length is a multiple of four", "why_tests_cant": "needs all inputs, including malformed ones and the padded end-mark case", "anchors": ["Util/Base64.hpp:kwsysBase64_Decode"]}
{"id": "C03", "title": "VTK inline binary block is self-describing", "statement": "The text written for a data array decodes to a 4-byte little-endian byte count followed by exactly that many payload bytes, and the payload is the array's memory image, for every array whose byte size fits the 32-bit header.", "quantifier": "all arrays of all sizes below 4 GiB", "why_tests_cant": "the header is a fixed-width count, so the claim is about every size up to the wrap-around, far beyond any test array", "anchors": ["Util/Base64.hpp:getBase64FromVector", "Util/IOHelper.hpp:writeDataArrayBase64"]}
{"id": "C04", "title": "Sorting by tag keeps tag/data pairs together and is stable", "statement": "sortDataWithTag leaves the tags in non-decreasing order, the multiset of (tag, datum) pairs is unchanged, data with equal tags keep their relative order, and sorting again changes nothing.", "quantifier": "all tag/data vectors of equal length", "why_tests_cant": "all inputs, including ties", "anchors": ["Util/SortUtil.hpp:sortDataWithTag"]}
{"id": "C05", "title": "All-to-all exchange delivers every item exactly once, to its destination, in order", "statement": "After exchangeAllToAllV on all ranks, what rank r receives is the concatenation, in source-rank order, of what each source addressed to r, each item keeping its order; the per-source counts reported match; nothing is lost, duplicated or delivered elsewhere, and performing the exchange back with the received counts restores every rank's send buffer.", "quantifier": "all numbers of ranks, all send count tables, all payloads", "why_tests_cant": "any number of ranks and any count table, including zeros", "anchors": ["MPI/CommMPI.hpp:CommMPI::exchangeAllToAllV"]}
{"id": "C06", "title": "Point collection and distribution are inverse and lossless", "statement": "Collecting points gathers on rank 0 the concatenation of all ranks' points in rank order and leaves the other ranks empty; collecting on all ranks gives every rank the same full list; distributing splits the root list in contiguous blocks in rank order, with block sizes given by the even partition, so that collecting afterwards restores the list (up to the 3-values-per-point layout), as long as (number of points)*(number of ranks) fits an int; beyond that the partition arithmetic overflows.", "quantifier": "all numbers of ranks and all per-rank point counts, including empty ranks", "why_tests_cant": "quantifies over rank counts and uneven sizes", "anchors": ["Util/PointDistribution.cpp:distributePts", "Util/PointDistribution.cpp:collectPts", "Util/PointDistribution.cpp:collectPtsAll"]}
{"id": "C07", "title": "Particle migration conserves particles and places them", "statement": "After exchangeParticle, the multiset of all particles over all ranks is unchanged, every particle sits on the rank whose domain contains it, particles that did not have to move keep their relative order at the front, and the reported send/receive counters balance globally. This holds for all particles with ordinary (non-NaN) positions in the half-open root domain; a particle strictly outside the root domain aborts the run instead of being dropped.", "quantifier": "all numbers of ranks, all grid decompositions that tile the root box, all particle placements", "why_tests_cant": "all placements and all decompositions, including particles exactly on a domain face", "anchors": ["FDPS/particle_system.hpp:ParticleSystem::exchangeParticle", "FDPS/particle_system.hpp:searchWhichDomainParticleGoTo", "FDPS/particle_system.hpp:determineWhetherParticleIsInDomain"]}
{"id": "C08", "title": "Sampling particles for load balancing does not disturb them", "statement": "Taking load-balance samples returns positions of pairwise distinct local particles and leaves the particle array exactly as it was, in the same order, whatever the random draws.", "quantifier": "all particle arrays, all sample sizes up to the local count, all sequences of random draws in range", "why_tests_cant": "the draws are random; the claim is for every draw sequence", "anchors": ["FDPS/particle_system.hpp:ParticleSystem::getSampleParticle"]}
{"id": "C09", "title": "Removing particles removes exactly the listed ones", "statement": "removeParticle with any list of valid indices, in any order and with repetitions, leaves exactly the particles whose index was not listed, each once, and shrinks the count by the number of distinct indices.", "quantifier": "all particle arrays and all index lists in range", "why_tests_cant": "swap-with-last removal is order sensitive; all index lists incl. duplicates and overlapping tails", "anchors": ["FDPS/particle_system.hpp:ParticleSystem::removeParticle"]}
{"id": "C10", "title": "Rank grid is a bijection and domains tile the box", "statement": "The process grid chosen from the number of ranks multiplies to the number of ranks and rank <-> grid coordinate is a bijection; after domain decomposition from at least as many samples as ranks every point of the root box lies in exactly one rank's domain, now and after any number of later smoothed decompositions.", "quantifier": "all rank counts, all sample sets, all histories of decompositions with a smoothing factor in [0,1]", "why_tests_cant": "history (exponential smoothing over all previous decompositions) and all sample sets", "anchors": ["FDPS/domain_info.hpp:SetNumberOfDomainMultiDimension", "FDPS/domain_info.hpp:DomainInfo::decomposeDomain", "FDPS/domain_info.hpp:calculateBoundaryOfDomainX/Y/Z"]}
{"id": "C11", "title": "Global ids stay unique under any history of insertions", "statement": "Starting from a system with pairwise distinct ids, after any sequence of addNewSylinder calls (any number of new objects per rank, ids staying in the int range), removals and migrations, all ids over all ranks are pairwise distinct, existing objects keep their ids, the new ids of each insertion are one contiguous range directly above the previous maximum, and the ids returned to each rank are exactly those of its own new objects in order.", "quantifier": "all histories, all numbers of ranks, all per-rank batch sizes, all shuffles of the assigned id pool", "why_tests_cant": "collective id assignment over all histories and rank counts", "anchors": ["Sylinder/SylinderSystem.cpp:SylinderSystem::addNewSylinder", "Sylinder/SylinderSystem.cpp:SylinderSystem::getMaxGid"]}
{"id": "C12", "title": "Global indices are a contiguous numbering", "statement": "After the per-step index update every local object gets a global index, the indices over all ranks are exactly 0..N-1 without gaps or repetitions, they follow rank order, and the six velocity/force unknowns of the object with index i are the matrix rows 6i..6i+5 owned by the same rank.", "quantifier": "all rank counts and all local counts including empty ranks", "why_tests_cant": "all distributions of objects", "anchors": ["Sylinder/SylinderSystem.cpp:SylinderSystem::updateSylinderMap", "Trilinos/TpetraUtil.cpp:getTMAPFromLocalSize"]}
{"id": "C13", "title": "Links are known to every rank, none lost or invented", "statement": "After any history of link insertions on any ranks, every rank holds the same collection of links, equal to the initially loaded links plus all inserted ones with multiplicity; the reverse lookup is the exact converse of the forward lookup; links written to the ascii file and loaded into a fresh system are the same links.", "quantifier": "all rank counts, all histories of addNewLink after at most one file load, all link sets", "why_tests_cant": "histories of collective operations", "anchors": ["Sylinder/SylinderSystem.cpp:SylinderSystem::addNewLink", "Sylinder/SylinderSystem.cpp:SylinderSystem::setLinkMapFromFile"]}
{"id": "C14", "title": "Each link yields exactly one bilateral spring, across periodic images", "statement": "Collecting link constraints creates, over all ranks together, exactly one two-sided bilateral block per link whose previous end exists, placed by the rank owning the previous end, joining the plus end (centre plus half the length along the axis) of the previous to the minus end of the next object, using the nearest periodic image of the next one, whatever the schedule and the order of the link map.", "quantifier": "all link sets whose next ends exist, all distributions of objects with distinct ids over ranks, all positions inside the periodic box", "why_tests_cant": "all distributions, link graphs and positions", "anchors": ["Sylinder/SylinderSystem.cpp:SylinderSystem::collectLinkBilateral", "Trilinos/ZDD.hpp:ZDD::find"]}
{"id": "C15", "title": "Distributed lookup returns the last published data for every id", "statement": "After any sequence of publications, each with ids unique over all ranks, a lookup of any list of ids from any rank stores for each requested id, in request order (repetitions allowed), the data last published under it, leaves longer result buffers otherwise untouched, and reports success exactly when every requested id was published.", "quantifier": "all rank counts, all id/data publications, all request lists", "why_tests_cant": "any request pattern on any rank count", "anchors": ["Trilinos/ZDD.hpp:ZDD::buildIndex", "Trilinos/ZDD.hpp:ZDD::find"]}
{"id": "C16", "title": "Periodic wrap puts a coordinate into the box, on the same image class", "statement": "Wrapping a coordinate into a box gives a value in [low, high) that differs from the input by an integer multiple of the box length, and leaves values already inside untouched.", "quantifier": "all coordinates and all boxes with positive length", "why_tests_cant": "all reals; and, for the double version, all doubles including ones next to the boundary", "anchors": ["Util/GeoUtil.hpp:findPBCImage(lb,ub,x)", "FDPS/particle_system.hpp:adjustPositionIntoRootDomain", "Sylinder/SylinderSystem.cpp:applyBoxBC"]}
{"id": "C17", "title": "Nearest periodic image", "statement": "findPBCImage with a target puts the target into the box and moves x to an image whose distance from the target is at most half the box length, minimal over all images.", "quantifier": "all x, targets and boxes of positive length", "why_tests_cant": "all reals, infinitely many images", "anchors": ["Util/GeoUtil.hpp:findPBCImage(lb,ub,x,trg)"]}
{"id": "C18", "title": "Parallel random streams never overlap", "statement": "With the same seed on all ranks, the random numbers drawn by any two different (rank, thread) pairs are disjoint positions of one base sequence, and together the streams cover the base sequence without gaps, for any number of ranks and threads; with one rank and one thread the stream is the base sequence.", "quantifier": "all numbers of ranks and threads, all draw counts", "why_tests_cant": "infinite streams, all layouts", "anchors": ["Util/TRngPool.hpp:TRngPool::TRngPool"]}
{"id": "C19", "title": "Assembled constraint matrix is the force/torque geometry", "statement": "The matrix assembled from the collected blocks maps constraint magnitudes to generalized forces such that each body receives, from each block it takes part in, gamma times the normal as force and gamma times (contact arm x normal) as torque; one-sided blocks act only on their first body; rows are numbered by rank, queue and position so each block has exactly one row; the right-hand side, guess, stiffness and bilateral flags of row i are those of block i.", "quantifier": "all block queues (any number of queues/threads, any contents), all rank splits", "why_tests_cant": "all block sets; index arithmetic over ragged queues", "anchors": ["Constraint/ConstraintCollector.cpp:ConstraintCollector::buildConstraintMatrixVector", "Constraint/ConstraintCollector.cpp:ConstraintCollector::buildConIndex"]}
{"id": "C20", "title": "Solution write-back reaches the block it belongs to", "statement": "Writing back the solution gives every block the magnitude of its own row and scales its stress by it once, for any split of the blocks over queues; total count, order and all other fields are unchanged.", "quantifier": "all queue splits and all solution vectors", "why_tests_cant": "ragged queues", "anchors": ["Constraint/ConstraintCollector.cpp:ConstraintCollector::writeBackGamma", "Constraint/ConstraintCollector.cpp:ConstraintCollector::buildConIndex"]}
{"id": "C21", "title": "Constraint operator is symmetric positive semi-definite", "statement": "The operator handed to the solver computes alpha*(D^T M D + K^-1) x + beta*y column by column; when the mobility is symmetric positive semi-definite and the inverse stiffnesses are non-negative, it is symmetric positive semi-definite.", "quantifier": "all constraint geometries, all mobilities, all vectors, all alpha and beta", "why_tests_cant": "a statement about all vectors and matrices", "anchors": ["Constraint/ConstraintOperator.cpp:ConstraintOperator::apply"]}
{"id": "C22", "title": "Zero projection residual characterises the optimum", "statement": "For a symmetric positive semi-definite operator and bounds at least a margin (100 eps) apart, a minimiser of the quadratic objective over the bounds has zero projection residual; a vector within the bounds with zero projection residual is optimal up to margin times the 1-norm of its gradient, and exactly optimal if no coordinate is strictly between a bound and the margin around it. The minimum-map residual of the LCP solvers is zero exactly at complementarity (x>=0, Ax+b>=0, x.(Ax+b)=0), which is exactly optimality for lower bound 0.", "quantifier": "all dimensions, operators, right-hand sides, bounds and vectors", "why_tests_cant": "optimality is a claim over all feasible vectors", "anchors": ["Constraint/BCQPSolver.cpp:BCQPSolver::checkProjectionResidual", "Constraint/BCQPSolver.cpp:BCQPSolver::boundProjection", "Collision/CPSolver.cpp:CPSolver::checkResiduePhi"]}
{"id": "C23", "title": "Gradient solver returns a feasible iterate that meets the reported residual", "statement": "From a guess within the bounds the BB projected-gradient solver never aborts and returns a vector within the bounds; if any history record is below the tolerance the return code is 0, the returned vector is within the bounds and its projection residual is below the tolerance; the history has one numbered record per residual evaluation, at most one more than the iteration limit, each holding the residual of the iterate it belongs to.", "quantifier": "all operators, right-hand sides, bounds, initial guesses, tolerances and iteration limits", "why_tests_cant": "all problem data; the loop may run any number of iterations", "anchors": ["Constraint/BCQPSolver.cpp:BCQPSolver::solveBBPGD", "Collision/CPSolver.cpp:CPSolver::LCP_BBPGD"]}
{"id": "C24", "title": "Accelerated solver returns the best iterate seen", "statement": "Whenever the APGD solver returns, the returned vector is, among all iterates whose residual it evaluated, one with the smallest residual and within the bounds, or else the all-ones vector if no evaluated residual was below DBL_MAX; if any evaluated residual was below the tolerance, the returned vector is within the bounds with residual below the tolerance. The solver ends unless the operator maps (guess - ones) to 0.", "quantifier": "all problem data, all iteration limits", "why_tests_cant": "all runs of the loop", "anchors": ["Constraint/BCQPSolver.cpp:BCQPSolver::solveAPGD", "Collision/CPSolver.cpp:CPSolver::LCP_APGD"]}
{"id": "C25", "title": "Constraint forces split consistently", "statement": "After a converged solve, the bilateral and unilateral constraint forces add up to the force of the returned magnitudes, each part using only its own kind of constraint, and likewise for velocities; the magnitudes are within the bounds with residual below the tolerance.", "quantifier": "all constraint sets, both solvers, all guesses within the bounds, all runs with a residual below the tolerance", "why_tests_cant": "depends on which iterate the solver returns", "anchors": ["Constraint/ConstraintSolver.cpp:ConstraintSolver::solveConstraints", "Constraint/ConstraintOperator.cpp:ConstraintOperator::apply"]}
{"id": "C26", "title": "Virial stress totals are independent of the thread split", "statement": "The bilateral and unilateral stress sums over all blocks do not depend on how blocks are distributed over queues or in which order queues are reduced, one-sided blocks contribute only when asked for, and every other block contributes exactly once to exactly one of the two sums.", "quantifier": "all block sets, all queue splits, all reduction orders", "why_tests_cant": "thread schedule", "anchors": ["Constraint/ConstraintCollector.cpp:ConstraintCollector::sumLocalConstraintStress"]}
{"id": "C27", "title": "Boundary projection and inside/outside test", "statement": "For the spherical shell, the wall and the tube: the projected point lies on the surface, its distance from the query is minimal over the surface, the reported delta has that distance as length and points along the unit normal towards the allowed side, and the query is projection plus delta on the allowed side and projection minus delta on the other.", "quantifier": "all surfaces with positive radius / unit normal and all query points off the degenerate centre/axis", "why_tests_cant": "minimality over all surface points for all query points", "anchors": ["Boundary/Boundary.cpp:SphereShell::project", "Boundary/Boundary.cpp:Wall::project", "Boundary/Boundary.cpp:Tube::project", "Boundary/Boundary.hpp"]}
{"id": "C28", "title": "Every wall overlap yields a one-sided constraint that pushes inward", "statement": "For every object and boundary, each end of a rod, or the centre of a sphere-like object, whose signed distance to the boundary is below (1 + 2 buffer) times the collision radius yields exactly one one-sided unilateral block whose gap is the signed distance minus the surface radius, whose position is the end relative to the object's centre and whose normal points from the boundary to the allowed side; other ends yield none; over all objects and boundaries the pool gains exactly these blocks under any thread schedule.", "quantifier": "all objects, boundaries and positions with ends off the degenerate centre/axis, all schedules; the normal is claimed for ends not exactly on the surface", "why_tests_cant": "all positions incl. deep penetration and degenerate spheres", "anchors": ["Sylinder/SylinderSystem.cpp:SylinderSystem::collectBoundaryCollision"]}
{"id": "C29", "title": "Orientation stays a unit quaternion", "statement": "Rotating a unit orientation by any angular velocity for any time step gives a unit quaternion; if |omega| is at least 2^-23 it is the exact rotation by the angle |omega| dt about omega after the old orientation, otherwise it is unchanged; rotated vectors keep their length; random orientations are unit quaternions; an Euler step moves the centre by vel dt and changes nothing else.", "quantifier": "all unit quaternions, angular velocities, time steps, and all histories of rotations", "why_tests_cant": "all reals and all step histories", "anchors": ["Util/EquatnHelper.hpp:EquatnHelper::rotateEquatn", "Util/EquatnHelper.hpp:EquatnHelper::setUnitRandomEquatn", "Sylinder/Sylinder.cpp:Sylinder::stepEuler"]}
{"id": "C30", "title": "Mobility is symmetric positive definite", "statement": "The mobility matrix assembled each step is block diagonal, symmetric, has exactly 18 stored entries in the six rows of each object, acts on force as 1/dragPara along the axis and 1/dragPerp across it and 1/dragRot on torque, is positive definite for movable objects and zero for immovable ones.", "quantifier": "all sizes, viscosities and orientations, all object counts", "why_tests_cant": "all reals and object counts", "anchors": ["Sylinder/SylinderSystem.cpp:SylinderSystem::calcMobMatrix", "Sylinder/Sylinder.cpp:Sylinder::calcDragCoeff"]}
{"id": "C31", "title": "Drag coefficients are positive and continuous in kind", "statement": "For positive radius, non-negative length and positive viscosity, all three drag coefficients are positive, sphere-like objects get isotropic Stokes drag of the enclosing sphere, and for elongated ones the parallel drag is smaller than the perpendicular drag exactly when length > radius e^1.5.", "quantifier": "all lengths, radii and viscosities", "why_tests_cant": "all reals, including the sphere/rod switch", "anchors": ["Sylinder/Sylinder.cpp:Sylinder::calcDragCoeff", "Sylinder/Sylinder.cpp:Sylinder::isSphere"]}
{"id": "C32", "title": "Segment-segment query reports a real pair of points, never better than the minimum", "statement": "The segment-segment distance query returns two points lying on the two segments at the returned parameters, reports exactly their distance (so never less than the true minimum), and never divides by zero; if each segment is a point or has squared length at least 2^-51 and the line of stationary first parameter does not cut a corner of the parameter square off at less than k, the squared reported distance exceeds the true minimum by at most 2^-51 max(1,|Q|^2)/k.", "quantifier": "all pairs of segments including degenerate and parallel ones; near-optimality for all pairs satisfying the stated conditions", "why_tests_cant": "all configurations; the minimum is over a continuum of point pairs", "anchors": ["Collision/DCPQuery.hpp:DCPQuery::operator()", "Collision/DCPQuery.hpp:GetClampedRoot", "Collision/DCPQuery.hpp:ComputeIntersection", "Collision/DCPQuery.hpp:ComputeMinimumParameters"]}
{"id": "C33", "title": "Point-segment distance is the true minimum", "statement": "The point-segment query returns a point of the segment, reports exactly its distance to the query point, and this distance is minimal over the segment, for degenerate segments too.", "quantifier": "all points and segments", "why_tests_cant": "minimum over a continuum", "anchors": ["Collision/DCPQuery.hpp:DistPointSeg"]}
{"id": "C34", "title": "Every close pair yields exactly one contact block", "statement": "During collision collection the pool gains, under any schedule of functor calls on threads, exactly the blocks of the delivered (target, source) pairs: a pair whose target has the smaller id yields one block if its core distance is below the buffered limit and none otherwise; all other pairs (including an object with itself) yield none. Hence if exactly one delivered pair of images of two objects, smaller id as target, is within the buffer, exactly one block between them is made, and if none is, no block.", "quantifier": "all sets of calls, threads, delivery orders, periodic images, both object shapes", "why_tests_cant": "all pair deliveries by the neighbour search", "anchors": ["Sylinder/SylinderNear.hpp:CalcSylinderNearForce::operator()"]}
{"id": "C35", "title": "Contact blocks obey action and reaction", "statement": "Each contact block between two objects has opposite normals along the line of the two core points, unit unless the cores cross, arms measured from the respective centres to the closest core points, gap equal to the core distance minus the two surface radii, non-negative guess equal to the overlap, and yields zero net force and zero net torque on the pair about any point.", "quantifier": "all sphere/rod pairs and positions, all magnitudes", "why_tests_cant": "all configurations", "anchors": ["Sylinder/SylinderNear.hpp:CalcSylinderNearForce::sp_sp", "Sylinder/SylinderNear.hpp:sp_sy", "Sylinder/SylinderNear.hpp:sy_sy"]}
{"id": "C36", "title": "Neighbour search radius is large enough", "statement": "Any two objects whose cores are closer than the buffered limit have centres closer than the larger of their declared search radii (the condition of the symmetric neighbour search), provided each has collision size not above its size or a collision core at least as long as its collision radius (true for every rod).", "quantifier": "all sizes, collision ratios satisfying the condition, positions and orientations", "why_tests_cant": "all geometries", "anchors": ["Sylinder/SylinderNear.hpp:SylinderNearEP::getRSearch"]}
{"id": "C37", "title": "Collision stress is frame independent and label independent", "statement": "The stress stored in a contact block does not change when both bodies are translated together, is the same when the two bodies are swapped, has the trace of the pairwise virial, and equals the closed form from the moment and inertia tensors of the two bodies; for two spheres it is the outer product of centre separation and force direction.", "quantifier": "all contact configurations and translations", "why_tests_cant": "all reals", "anchors": ["Sylinder/SylinderNear.hpp:collideStress"]}
{"id": "C38", "title": "Velocity bookkeeping adds up", "statement": "After a step every object's velocity is the sum of its stored parts (Brownian, non-Brownian, unilateral, bilateral) and its force the sum of the stored forces; the parts are the drawn, prescribed plus mobility response, and solver ones; the object advances by that velocity times the time step; immovable objects without prescribed velocity do not move.", "quantifier": "all inputs, all schedules, all constraint solver results", "why_tests_cant": "all states reachable by the step loop", "anchors": ["Sylinder/SylinderSystem.cpp:sumForceVelocity", "Sylinder/SylinderSystem.cpp:calcVelocityNonCon", "Sylinder/SylinderSystem.cpp:saveForceVelocityConstraints", "Sylinder/SylinderSystem.cpp:stepEuler"]}
{"id": "C39", "title": "Snapshots come at the configured interval", "statement": "A run writes results exactly at the steps that are multiples of the interval trunc(timeSnap/dt), numbering snapshots consecutively, ends at the first step whose time is not below the total time (such a step exists for positive dt), and a run continued after a snapshot writes the same snapshots with the same numbers as the uninterrupted one; the interval is exact when timeSnap is an exact multiple of dt.", "quantifier": "all time steps, snapshot intervals and total times; all runs and restarts", "why_tests_cant": "unbounded runs", "anchors": ["Sylinder/SylinderSystem.cpp:getIfWriteResultCurrentStep", "Sylinder/SylinderSystem.cpp:runStep", "Sylinder/SylinderSystem.cpp:writeResult", "Sylinder/SylinderSystem_main.cpp:main"]}
{"id": "C40", "title": "Restart continues from the last complete snapshot", "statement": "If the process dies anywhere, files of snapshots from before the run are untouched and the restart file is unchanged or (the beginning of) the one of a snapshot of this run all of whose rank 0 files are complete, with all earlier snapshots complete on all ranks and the named one complete as soon as the ranks are through with it (always, for one rank); a cut-off restart file never names a snapshot; restarting continues with the next step number, next snapshot number and next seed. In all histories of runs and restarts interrupted in settled states all snapshots up to the named one are complete.", "quantifier": "all crash points in all runs, all numbers of ranks, all histories of restarts", "why_tests_cant": "crash points and inter-rank orderings", "anchors": ["Sylinder/SylinderSystem.cpp:writeResult", "Sylinder/SylinderSystem.cpp:writeTimeStepInfo", "Sylinder/SylinderSystem.cpp:reinitialize"]}
{"id": "C41", "title": "Result folders never collide", "statement": "The folder of a snapshot depends only on the snapshot number and the number of ranks, folders partition the snapshot numbers into consecutive blocks, two snapshots share a folder exactly when they belong to the same block, and the file names of two different (snapshot, rank) pairs differ.", "quantifier": "all snapshot numbers, rank counts", "why_tests_cant": "all numbers", "anchors": ["Sylinder/SylinderSystem.cpp:getResultFolderWithID", "Sylinder/Sylinder.hpp:writeVTP", "Sylinder/Sylinder.hpp:writePVTP"]}
{"id": "C42", "title": "Snapshot files describe every object, field by field", "statement": "In the particle snapshot each object occupies two points and one line; the fields of object i are found at the documented offsets, the parallel header lists exactly the arrays (name, type, component count, order) present in every piece and names exactly the piece files written by the ranks; reading the restart fields back yields the stored ids, sizes, positions and orientation axes.", "quantifier": "all object counts and rank counts", "why_tests_cant": "all counts and packings", "anchors": ["Sylinder/Sylinder.hpp:writeVTP", "Sylinder/Sylinder.hpp:writePVTP", "Sylinder/SylinderSystem.cpp:setInitialFromVTKFile", "Util/IOHelper.hpp:writePVTPFile"]}
{"id": "C43", "title": "Configuration keys: required ones must exist, optional ones keep defaults", "statement": "Reading a configuration fails for every missing required key and every array of the wrong length, never changes an optional setting that is absent, and otherwise stores exactly the given values.", "quantifier": "all configuration documents", "why_tests_cant": "all key subsets and lengths", "anchors": ["Util/YamlHelper.hpp:readConfig", "Sylinder/SylinderConfig.cpp:SylinderConfig"]}
{"id": "C44", "title": "Serialization buffer replays what was packed", "statement": "Objects packed into a buffer in any sequence are unpacked in the same sequence with equal values; packing after unpacking does not disturb unread objects; rewinding re-reads them.", "quantifier": "all sequences of pack/unpack/rewind operations, all objects", "why_tests_cant": "operation histories", "anchors": ["Util/Buffer.hpp:Buffer"]}
{"id": "C45", "title": "Two-block maps and vectors concatenate per rank", "statement": "The combined map of two block maps owns on each rank first the entries of the first and then those of the second map, global indices are unique and cover both blocks, and the combined vector holds the first vector's local entries followed by the second's.", "quantifier": "all rank counts and local sizes", "why_tests_cant": "all distributions", "anchors": ["Trilinos/TpetraUtil.cpp:getTMAPFromTwoBlockTMAP", "Trilinos/TpetraUtil.cpp:getTVFromTwoBlockTV", "Trilinos/TpetraUtil.cpp:getTVFromVector"]}
{"id": "C46", "title": "Command line values reach the option they follow", "statement": "A token naming an option selects it; a list option takes all following tokens up to the next option, any other option takes one, and remaining tokens go to the default option. run() succeeds exactly if every token has such a place, every required option is given and the tokens of every given option parse; options not given keep their value; a request for help is honoured before errors about missing or malformed options.", "quantifier": "all argument vectors and option declarations", "why_tests_cant": "all argument vectors", "anchors": ["Util/cmdparser.hpp:cli::Parser::run", "Util/cmdparser.hpp:cli::Parser::find", "Util/cmdparser.hpp:cli::Parser::get"]}
{"id": "C47", "title": "Morton keys interleave bits and order cells", "statement": "For coordinates on the 2^21 grid, the key's bits are the interleaved bits of x, y, z; distinct cells get distinct keys, and the cell id at any level reads the three coordinate bits of that level.", "quantifier": "all 2^63 grid cells and all levels", "why_tests_cant": "2^63 cells", "anchors": ["FDPS/key.hpp:MortonKey::separateBit", "FDPS/key.hpp:MortonKey::getKey", "FDPS/key.hpp:MortonKey::getCellID"]}
{"id": "C48", "title": "Mixed-type pair interaction sees every pair once", "statement": "In the mixed source/target interaction, sources and targets put in one system keep their identity and order, force results are written back to the target they belong to, and the pairing functor is applied to every (target, source) pair in range and never to two of a kind.", "quantifier": "all source and target sets", "why_tests_cant": "all sets", "anchors": ["MPI/MixPairInteraction.hpp:MixPairInteraction::updateSystem", "MPI/MixPairInteraction.hpp:MixPairInteraction::computeForce"]}
{"id": "C49", "title": "Bounding box encloses every object", "statement": "The local and global boxes contain every object end point as computed in doubles; each face of the low corner touches an end point if there is any object, and each face of the high corner touches one if some end point has a coordinate of at least 2^-1022 there (otherwise the code leaves the high face at 2^-1022). Ranks without objects do not change the global box.", "quantifier": "all object sets with finite end points on all ranks", "why_tests_cant": "all positions incl. all-negative coordinates", "anchors": ["Sylinder/SylinderSystem.cpp:SylinderSystem::calcBoundingBox"]}
{"id": "C50", "title": "Order parameters are bounded and frame invariant", "statement": "The polar order vector has length at most one, the nematic tensor is symmetric and traceless with eigenvalues bounded by -1/3 and 2/3, flipping all axes leaves the nematic tensor and negates the polar vector, independent of the split over ranks.", "quantifier": "all orientation sets and rank splits", "why_tests_cant": "all sets", "anchors": ["Sylinder/SylinderSystem.cpp:SylinderSystem::calcOrderParameter"]}
{"id": "C51", "title": "Reversing a constraint block is an involution", "statement": "Swapping the two bodies of a constraint block twice restores it; a single swap exchanges all body-indexed data and leaves gap, magnitude, guess, stiffness, flags and stress untouched; setting then reading the stress returns it.", "quantifier": "all blocks", "why_tests_cant": "all field values", "anchors": ["Constraint/ConstraintBlock.hpp:ConstraintBlock::reverseIJ", "Constraint/ConstraintBlock.hpp:setStress/getStress"]}
{"id": "C52", "title": "LCP minimum-map Newton: accepted result and direction", "statement": "The minimum-map residual is zero exactly at solutions of the complementarity problem; an exact solution of the linear system of a step makes x zero on the active set and Ax+b zero off it; every run ends, with one numbered record per iteration, and a run stopped by the residual test returns a non-negative vector whose residual is below the tolerance, or whose last step was below 1e-14.", "quantifier": "all LCPs, all runs", "why_tests_cant": "all runs of the loop", "anchors": ["Collision/CPSolver.cpp:CPSolver::LCP_mmNewton", "Collision/CPSolver.cpp:CPSolver::hMinMap", "Collision/CPSolver.cpp:mmNewtonOperator"]}
{"id": "C53", "title": "Box configuration reaches the domain decomposition", "statement": "The periodic flags in the configuration and the periodicity used for domain decomposition agree on every axis, and periodic axes use the configured box edges while others are unbounded.", "quantifier": "all 8 flag combinations, all boxes", "why_tests_cant": "all flag/box combinations", "anchors": ["Sylinder/SylinderSystem.cpp:SylinderSystem::setDomainInfo", "FDPS/domain_info.hpp:setBoundaryCondition", "FDPS/domain_info.hpp:setPosRootDomain"]}
{"id": "C54", "title": "Random initial configuration respects the box", "statement": "Objects created from the configuration number exactly the requested count, carry ids 0..n-1, lie in the initial box with lengths within the allowed range and radii as configured, and in circular-section mode lie within the circle; random points in a circle or on a sphere satisfy their defining equation.", "quantifier": "all configurations and random draws", "why_tests_cant": "all random draws", "anchors": ["Sylinder/SylinderSystem.cpp:setInitialFromConfig", "Sylinder/SylinderSystem.cpp:setInitialCircularCrossSection", "Util/GeoUtil.hpp:getRandPointInCircle", "Util/GeoUtil.hpp:getRandPointOnSphere"]}
{"id": "C55", "title": "Point layouts and the error check", "statement": "The layouts with 1, 2 and 4 points append that many points inside the box (other counts empty the list), the random layout gives (n+1)^3 points inside the box, and shifting and scaling maps every complete point affinely. The error check exits for vectors of different size; otherwise it reports the greatest absolute and relative, mean, root mean square and relative L2 deviation of the concatenated vectors, the greatest deviation is zero exactly for equal vectors, and equal vectors without zeros pass every bar.", "quantifier": "all counts, shifts, scales, vectors without zero true values and splits over ranks", "why_tests_cant": "all sizes", "anchors": ["Util/PointDistribution.cpp:fixedPoints", "Util/PointDistribution.cpp:shiftAndScalePoints", "Util/PointDistribution.cpp:checkError"]}
{"id": "C56", "title": "Quaternion rate and cross-product matrices", "statement": "The cross-product matrix of p maps every v to p x v, and the Psi matrix of a quaternion maps every angular velocity to the time derivative of that quaternion (half the product of the pure quaternion of omega with it, scalar part first).", "quantifier": "all vectors and quaternions", "why_tests_cant": "all reals", "anchors": ["Util/EquatnHelper.hpp:EquatnHelper::getCrossProductMatrix", "Util/EquatnHelper.hpp:EquatnHelper::getPsiMatFromEquatn"]}
{"id": "C57", "title": "Brownian velocities obey fluctuation-dissipation", "statement": "The Brownian velocity of a movable object is a matrix B applied to its three normal draws plus a drift, where B B^T equals 2 kT/dt times the translational mobility of that object, and its Brownian angular velocity is a factor k times its other three draws where k^2 equals 2 kT/dt times the rotational mobility; for non-elongated objects the drift is zero, and immovable objects get no Brownian velocity.", "quantifier": "all sizes, orientations, viscosities, temperatures, time steps and draws", "why_tests_cant": "a sampled variance cannot establish an identity for every orientation and size", "anchors": ["Sylinder/SylinderSystem.cpp:SylinderSystem::calcVelocityBrown"]}
{"id": "C58", "title": "Preparing a step clears the old state and enforces the monolayer", "statement": "Before a step every object has all velocities and forces zero, the current rank, its collision sizes set from the configured ratios, and unchanged identity and size; in monolayer mode every centre is moved vertically onto the mid-plane, and the axis of every non-vertical object becomes the unit vector along its projection into the plane; otherwise the pose is unchanged.", "quantifier": "all configurations, objects and loop schedules", "why_tests_cant": "all orientations and all schedules", "anchors": ["Sylinder/SylinderSystem.cpp:SylinderSystem::prepareStep"]}
{"id": "C59", "title": "Constraint snapshot files describe every constraint block, field by field", "statement": "In the constraint snapshot of a rank each block of every thread queue occupies two points and one line, blocks appear in queue order whatever the loop schedules, every array has the right size, each named field holds the values of its block, and the parallel header lists exactly the arrays of every piece and names exactly the piece files.", "quantifier": "all constraint pools, queue counts, schedules and rank counts", "why_tests_cant": "all distributions of blocks over queues and all schedules", "anchors": ["Constraint/ConstraintCollector.cpp:ConstraintCollector::writeVTP", "Constraint/ConstraintCollector.cpp:ConstraintCollector::writePVTP"]}
{"id": "C60", "title": "Reported volume and volume fraction", "statement": "The reported volume is the sum over all objects on all ranks of the volume of a spherocylinder of the object's radius and length, the reported fraction is that volume divided by the volume of the simulation box, and neither depends on how the objects are split over ranks and threads.", "quantifier": "all object sets, boxes and splits (exact arithmetic)", "why_tests_cant": "all object sets and splits", "anchors": ["Sylinder/SylinderSystem.cpp:SylinderSystem::calcVolFrac"]}
{"id": "C61", "title": "Tree particles are sorted by key, stably and independently of threads", "statement": "Sorting n tree particles by Morton key with the threaded radix sort leaves the n elements in non-decreasing key order with equal keys in their previous order, whatever the number of threads and however their iterations interleave, and touches no element beyond the n in either array; the outcome is therefore the same for every thread count.", "quantifier": "all element sequences, key widths, digit widths, thread counts and interleavings of a statically scheduled team", "why_tests_cant": "all thread counts and interleavings", "anchors": ["FDPS/sort.hpp:RadixSort::lsdSort"]}
{"id": "C62", "title": "The tree built from sorted keys is a valid octree", "statement": "Given particles sorted by Morton key, the tree construction finishes for every processing order of the cells of a level and every old content of the cell array; the root covers all particles, each cell that was split has eight children that split its particle range by the next octal digit of the key, a cell is a leaf exactly if it has at most the leaf limit of particles or is at the deepest level, and the level table delimits exactly the cells of each level.", "quantifier": "all sorted key sequences within the stated size limits, leaf limits from 1, loop schedules and old memory contents", "why_tests_cant": "key patterns of every depth, and all schedules", "anchors": ["FDPS/tree_for_force_utils.hpp:LinkCell", "FDPS/tree_for_force_utils.hpp:LinkCellST", "FDPS/tree_for_force_utils.hpp:GetPartitionID"]}
{"id": "C63", "title": "Tree cells carry the smallest boxes around their particles", "statement": "After the moments are computed every cell with particles has as inner box the smallest box around the positions of its particles and as outer box the smallest box around their search spheres, in exact arithmetic and in doubles, for every loop order and leftover memory.", "quantifier": "all finite positions and radii below the initial box bound, keys, leaf limits, schedules", "why_tests_cant": "all particle sets and rounding patterns", "anchors": ["FDPS/tree_for_force_utils.hpp:CalcMoment", "FDPS/tree.hpp:MomentSearchInAndOut"]}
{"id": "C64", "title": "Particle groups tile the local particles", "statement": "The groups formed for the interaction calculation partition the local particles into consecutive ranges in tree order, each group's boxes are the smallest around its particles and search spheres, and a group exceeds the group limit only if all its keys are equal.", "quantifier": "all trees built from sorted keys, group limits not below the leaf limit", "why_tests_cant": "all key patterns", "anchors": ["FDPS/tree_for_force_utils.hpp:MakeIPGroupShort", "FDPS/tree_for_force_impl.hpp:TreeForForce::makeIPGroupImpl"]}
{"id": "C65", "title": "Neighbour lists contain every pair in reach", "statement": "For every local particle i and global particle j such that the distance is at most the search radius of i or of j, j is in the interaction list of the group of i, lists have no duplicates and are ordered; hence two objects close enough to be in contact always meet in a list. In exact arithmetic the list of a group is exactly the particles that its boxes reach or whose search sphere reaches it.", "quantifier": "all particle sets, keys, limits, schedules; in doubles with a relative margin of 2^-50", "why_tests_cant": "a missed pair only shows for particular positions relative to the cells", "anchors": ["FDPS/tree_walk.hpp:MakeListUsingTreeRecursiveTop", "FDPS/tree_for_force_impl.hpp:TreeForForce::makeInteractionListIndexShort", "Sylinder/SylinderNear.hpp:SylinderNearEP::getRSearch"]}
{"id": "C66", "title": "Periodic images of domains and particles are identified exactly", "statement": "The list of domain images a rank works with contains, once each, exactly the shifts along periodic axes for which the shifted domain touches the box of the rank's search spheres, minus the unshifted own domain; and a particle moved by a whole number of boxes is recognised as belonging to exactly that image.", "quantifier": "all boxes, domains, periodicities and shifts (exact arithmetic); refuted for doubles at the upper face", "why_tests_cant": "shifts of any size, and positions on the faces", "anchors": ["FDPS/tree_for_force_utils.hpp:CalcNumberAndShiftOfImageDomain", "FDPS/tree_for_force_utils.hpp:CalcIDOfImageDomain"]}
{"id": "C67", "title": "The exchange delivers every remote particle in reach, once, shifted to the right image", "statement": "After the exchange of tree particles a rank has received only images of particles of other ranks (or nontrivial images of its own), none twice, each with its position shifted by its image, and among them every image that is within the search radius of a local particle or whose search radius reaches one; all count and displacement arrays passed to the communication are consistent, and the outcome does not depend on the division of work among threads or on leftover memory.", "quantifier": "all numbers of ranks, domains, particle sets, periodicities (exact arithmetic); doubles without periodic axes", "why_tests_cant": "needs many ranks, periodic images and every thread schedule", "anchors": ["FDPS/tree_for_force_impl.hpp:TreeForForce::exchangeLocalEssentialTreeReuseListImpl", "FDPS/tree_for_force_utils2.hpp:FindScatterParticle", "FDPS/tree_for_force_utils2.hpp:ExchangeNumber", "FDPS/tree_for_force_utils2.hpp:ExchangeParticle"]}
{"id": "C68", "title": "Neighbour search over all ranks misses no pair", "statement": "Exchange and search together give, for each particle of each rank, a list with every image of every particle of the whole simulation that is within either search radius; hence no contact between objects on different ranks or across a periodic boundary is missed.", "quantifier": "all distributions of particles over ranks, periodicities, sort and thread orders (exact arithmetic); doubles without periodic axes up to a relative margin of 2^-50", "why_tests_cant": "a missed pair only shows for particular positions relative to domains, cells and faces", "anchors": ["FDPS/tree_for_force_impl.hpp:TreeForForce::exchangeLocalEssentialTreeReuseListImpl", "FDPS/tree_for_force_impl.hpp:TreeForForce::makeInteractionListIndexShort", "Sylinder/SylinderNear.hpp:SylinderNearEP::getRSearch"]}
{"id": "C69", "title": "The root cell of the tree holds every particle and every image sent", "statement": "The root cell computed from the search spheres of all ranks and the periodic axes gives every particle, and every periodic image of a particle that the exchange may send, a tree key of 21 octal digits, without undefined conversions, whatever the division of the particles among threads.", "quantifier": "all numbers of ranks, particle sets with search radii up to 9000 boxes along periodic axes, all periodicities (exact arithmetic); refuted for doubles when the whole extent is lost to rounding", "why_tests_cant": "particles outside of the cell only occur for large search radii, several images or extreme positions", "anchors": ["FDPS/tree_for_force_impl.hpp:TreeForForce::setRootCell", "FDPS/tree_for_force_impl.hpp:TreeForForce::calcCenterAndLengthOfRootCellImpl", "FDPS/key.hpp:MortonKey::getKey"]}
{"id": "C70", "title": "calcForceAll gives every particle all its neighbours exactly once and returns its force in the original order", "statement": "calcForceAll calls the interaction functor such that over all calls on a rank every local particle is a target exactly once; the sources of each call are distinct images of particles of all ranks, among them every image within either search radius of a target; the forces are cleared before the call, and the force stored for a particle in the original order is the one the functor computed for it. This holds for every thread count, schedule, sort order and leftover memory.", "quantifier": "all numbers of ranks and threads, particle sets, periodicities, leaf and group limits (exact arithmetic), particle numbers that fit 32 bits", "why_tests_cant": "needs all ranks, images, schedules and leftover memory at once", "anchors": ["FDPS/tree_for_force.hpp:TreeForForce::calcForceAll", "FDPS/tree_for_force_impl.hpp:TreeForForce::mortonSortLocalTreeOnly", "FDPS/tree_for_force_impl.hpp:TreeForForce::mortonSortGlobalTreeOnly", "FDPS/tree_for_force_impl_force.hpp:TreeForForce::calcForce", "FDPS/tree_for_force_impl.hpp:TreeForForce::copyForceOriginalOrder"]}
{"id": "C71", "title": "Over all ranks and images, each contact is collected exactly once", "statement": "Running the contact functor through calcForceAll on all ranks puts into the queues of the rank that owns rod i exactly one constraint block for each image of a rod j with larger id, on any rank, that is found within the collision limit, each block describing the contact of rod i with that image; every pair of images near enough gives a block, and nothing else is queued.", "quantifier": "all distributions of rods over ranks, periodicities, thread counts and schedules (exact arithmetic)", "why_tests_cant": "lost or doubled contacts only show for particular distributions, images and schedules", "anchors": ["FDPS/tree_for_force.hpp:TreeForForce::calcForceAll", "Sylinder/SylinderNear.hpp:CalcSylinderNearForce::operator()"]}
{"id": "C72", "title": "Preparing a step settles all objects on their ranks", "statement": "After initialize, and after every prepareStep, the domains tile the box given by the settings, each object is inside the box, on the rank whose domain contains it, and knows this rank; no object is lost, doubled or changed except that its position is replaced by its periodic image in the box, the collision sizes are set from the ratios, and the objects are numbered 0, 1, 2, ... rank by rank. The domains change only in every 50th step.", "quantifier": "all settings, numbers of ranks, distributions of objects over ranks, random numbers, sort and loop orders, step numbers (exact arithmetic), at least as many objects as ranks when the domains are made", "why_tests_cant": "the pieces are tested alone at best; whether one piece leaves what the next one needs shows only on many ranks", "anchors": ["Sylinder/SylinderSystem.cpp:SylinderSystem::prepareStep", "Sylinder/SylinderSystem.cpp:SylinderSystem::decomposeDomain", "Sylinder/SylinderSystem.cpp:SylinderSystem::exchangeSylinder", "Sylinder/SylinderSystem.cpp:SylinderSystem::applyBoxBC", "Sylinder/SylinderSystem.cpp:SylinderSystem::updateSylinderMap", "Sylinder/SylinderSystem.cpp:SylinderSystem::setDomainInfo"]}
{"id": "C73", "title": "A step finds every contact exactly once, from any distribution of the objects", "statement": "prepareStep followed by collectPairCollision gives, whatever ranks the objects were on and wherever they were, one constraint block for each object and each periodic image of an object of larger id found to be within the collision limit, on the rank that owns the first object, with its ids and global indices; every pair near enough has a block, and no other blocks exist. In a monolayer this needs a single layer of domains.", "quantifier": "all settings without monolayer, ranks, distributions, periodicities, objects with sensible sizes (exact arithmetic); refuted for a monolayer on several layers of domains", "why_tests_cant": "a missed contact needs particular positions relative to domains of several ranks", "anchors": ["Sylinder/SylinderSystem.cpp:SylinderSystem::prepareStep", "Sylinder/SylinderSystem.cpp:SylinderSystem::collectPairCollision", "Sylinder/SylinderSystem.cpp:SylinderSystem::resolveConstraints", "Sylinder/SylinderNear.hpp:SylinderNearEP::getRSearch"]}
{"id": "C74", "title": "A step on all ranks leaves no contact unresolved and moves objects by the forces of their contacts", "statement": "When the constraint solver of runStep has reached its tolerance, every collected block fits to the velocities that the objects get in this step: the gap at the end of the step, to first order in the motion, is above -dt tol (unless the magnitude is at its upper bound), it is below dt tol wherever a contact has a force, and a spring has its rest length plus its stretch under the magnitude; magnitudes of contacts are not negative. The stored collision and bilateral forces and torques of each object are the sums of the loads of its blocks, whichever rank found them, its velocities are the response of its mobility to them, and the object moves by the sum of all its velocities. The forces of two-sided blocks sum to zero over all objects. The step always ends with the default solver.", "quantifier": "all numbers of ranks and objects, all blocks, thread schedules, uninitialised memory, both solvers (exact arithmetic)", "why_tests_cant": "the solver, the matrices and the distribution of blocks over ranks have to fit together; tests compare single cases with plots", "anchors": ["Sylinder/SylinderSystem.cpp:SylinderSystem::runStep", "Sylinder/SylinderSystem.cpp:SylinderSystem::resolveConstraints", "Constraint/ConstraintSolver.cpp:ConstraintSolver::setup", "Constraint/ConstraintSolver.cpp:ConstraintSolver::solveConstraints", "Constraint/ConstraintCollector.cpp:ConstraintCollector::buildConstraintMatrixVector", "Constraint/ConstraintCollector.cpp:ConstraintCollector::writeBackGamma"]}
{"id": "C75", "title": "After a converged step neighbouring spheres do not overlap, across ranks and periodic boundaries, and stay off the walls", "statement": "runStep with the blocks that resolveConstraints itself collects from the prepared objects: two spheres on any ranks, one of them possibly seen as a periodic image, that are within the collision limit before the step have, after a step whose solver reached its tolerance, centres further apart than the sum of their collision radii minus dt tol. A sphere near or beyond a plane wall has its centre at least its collision radius minus dt tol on the inner side of the wall after the step. The forces of all links add up to zero, and so do those of all contacts when there are no walls. prepareStep leaves everything this needs, and the step ends with the default solver.", "quantifier": "all numbers of ranks and objects, domains, periodicities, walls and other boundaries, links, thread schedules, message orders, uninitialised memory, both solvers (exact arithmetic)", "why_tests_cant": "an overlap left by a missed contact, a wrong image, a wrong index or a sign in the matrix needs specific positions and ranks; tests would see it only as a slightly wrong density", "anchors": ["Sylinder/SylinderSystem.cpp:SylinderSystem::runStep", "Sylinder/SylinderSystem.cpp:SylinderSystem::prepareStep", "Sylinder/SylinderSystem.cpp:SylinderSystem::resolveConstraints", "Sylinder/SylinderSystem.cpp:SylinderSystem::collectPairCollision", "Sylinder/SylinderSystem.cpp:SylinderSystem::collectBoundaryCollision", "Sylinder/SylinderSystem.cpp:SylinderSystem::collectLinkBilateral"]}
{"id": "C76", "title": "The main loop does its steps to the end, keeps every object, and its converged steps leave no overlaps", "statement": "Start from any state in which there are at least as many objects as ranks, ids are unique, sizes are positive and fit the periodic box, and directions are unit quaternions; initialize (decompose and exchange) leaves such a state. Run the main loop of SylinderSystem_main: while stepCount*dt < timeTotal do prepareStep and runStep, where each step decomposes the domain every 50th time, moves objects to their ranks, computes the mobility, collects pair, boundary and link blocks, solves the constraints and moves the objects. Then the loop ends, with every step done and a state of the same kind after each, for every choice of samples, message and thread order, noise, and user forces and velocities of the right length; the only other outcomes are that an object is more than 2^100 away along an axis that is not periodic, or that more than INT_MAX blocks are collected. Ids, groups, sizes and immovable flags of the objects are those of the start. In each step the objects are inside the box after prepareStep and keep their shape; if the solver of that step converged, pairs of spheres whose distance was within the contact limit do not overlap afterwards by more than dt*tolerance, no two spheres at all do if none moved by more than its collision buffer, spheres are inside of walls, and forces of links (and of contacts, if there are no walls) sum to zero.", "quantifier": "all settings with the default solver and no monolayer, all numbers of ranks and objects, all numbers of steps, all random choices, exact arithmetic", "why_tests_cant": "Tests run few steps with few objects; that a state after any number of steps meets the preconditions of the next one, for all sizes, random numbers and thread schedules, needs an induction over steps.", "anchors": ["Sylinder/SylinderSystem_main.cpp:main", "Sylinder/SylinderSystem.cpp:SylinderSystem::initialize", "Sylinder/SylinderSystem.cpp:SylinderSystem::prepareStep", "Sylinder/SylinderSystem.cpp:SylinderSystem::runStep", "Sylinder/SylinderSystem.cpp:SylinderSystem::resolveConstraints"]}
{"id": "C77", "title": "Arrays that use the memory pool of FDPS behave as lists, whatever moves, and leave nothing behind", "statement": "For any sequence of calls of ReallocatableArray (constructors, initialize, setAllocMode, resizeNoInitialize, reserve, reserveAtLeast, reserveEmptyAreaAtLeast, clearSize, push_back, pushBackNoCheck, element access, increaseSize, decreaseSize, freeMem, destructor) on any number of arrays with elements of any sizes, in and outside of parallel regions, with a pool of any initial capacity: no call reads or writes memory that it may not, each call changes the elements of its own array as the call says (kept elements keep their bytes), and the elements of all other arrays stay the same although the pool reallocates its block, reuses segments, deletes the last one, uses emergency buffers and moves them back. When no array has memory in the pool any more, the pool is empty (size 0, no segments, no buffers), as FDPS/tree_for_force.hpp:328 asserts. Conditions: sizes up to 9*10^8, fewer than 10000 segments; arrays with an emergency buffer neither grow nor are freed before it is moved back; no reserve that grows, no reserveAtLeast and no destructor on an array of the pool without memory. Each of the latter is refuted: the destructor after freeMem, as in every exchangeParticle, reads before the table of segments.", "quantifier": "all sequences of calls, numbers and element sizes of arrays, parallel or not, initial capacities, contents of new memory", "why_tests_cant": "The pool keeps addresses of members of arrays and rewrites them when memory moves; a wrong offset, a segment given twice or a pointer not updated corrupts another array only for particular orders of calls and sizes, and only in multi-threaded runs for the emergency buffers.", "anchors": ["FDPS/memory_pool.hpp:MemoryPool::alloc", "FDPS/memory_pool.hpp:MemoryPool::freeMem", "FDPS/memory_pool.hpp:MemoryPool::unifyMem", "FDPS/memory_pool.hpp:MemoryPool::reInitialize", "FDPS/reallocatable_array.hpp:ReallocatableArray::ReallocInner", "FDPS/reallocatable_array.hpp:ReallocatableArray::resizeNoInitialize", "FDPS/reallocatable_array.hpp:ReallocatableArray::freeMem"]}
{"id": "C78", "title": "A snapshot file in text form reads back as the objects and links that were written", "statement": "writeAscii on all ranks writes one line per object (kind, id, radius, both ends, group, numbers with %.8g) and one line per link; setInitialFromFile and setLinkMapFromFile read such a file. For any objects with finite numbers and any links: rank 0 gets every object exactly once, in the order of the ranks, whatever order the loop over lines runs in, with the id, group and kind that were written and radius and ends within a relative error of 10^-7 (plus 2^-1074); other ranks get none, velocities and forces are zero, and the links are those written. A number that was read prints as the same text again, so that files do not drift when they are written and read repeatedly. In exact arithmetic the object made from two ends has these ends, their distance as length and a unit quaternion; errors d of the ends give errors of at most d of the centre and 4 d of the length. A line without group gives the group -1. A link line is read with its numbers, a plus sign before a number is accepted, lines of another kind are skipped, and the time in the comment prints with six decimals correctly rounded. Refuted: when a remark follows the numbers the group is 0, and an object with an infinite coordinate is written in a way whose reading uses variables that were never set.", "quantifier": "all numbers of ranks, objects and links, all finite doubles including denormals, all orders of the loop, all values of uninitialised memory (doubles bit by bit; ends of objects in exact arithmetic)", "why_tests_cant": "Printing with eight digits and reading back is right for almost all numbers if it is right for some; carries to a new digit, the switch to exponents, denormals and -0 need particular numbers.", "anchors": ["Sylinder/Sylinder.cpp:Sylinder::writeAscii", "Sylinder/SylinderSystem.cpp:SylinderSystem::setInitialFromFile", "Sylinder/SylinderSystem.cpp:SylinderSystem::setLinkMapFromFile", "Sylinder/SylinderSystem.cpp:SylinderSystem::writeAscii"]}
{"id": "C79", "title": "The random number generator of FDPS returns the numbers of MT19937, different for different ranks and in the stated intervals", "statement": "After init_genrand(s) any number of calls of genrand_int32 returns the tempered words of the Mersenne Twister recurrence for the low 32 bits of s, whatever the memory held before; without seeding it is as if seeded with 5489. The sequence is determined by the recurrence. Seeds that differ in the low 32 bits, such as the ranks used to seed the sampling of particles, give sequences that differ within the first 624 numbers, and no 624 consecutive numbers are all zero. genrand_res53 is exactly k*2^-53 with k the 53 bits of two numbers, so it is never 1; genrand_int31, real1, real2 and real3 lie in [0,2^31), [0,1], [0,1) and (0,1). Sampling particles with these numbers picks distinct particles and leaves the array as it was.", "quantifier": "all seeds, all contents of the memory, all numbers of calls, all ranks (doubles bit by bit)", "why_tests_cant": "A wrong constant or index gives numbers that still look random; the interval ends are met once in 2^53 calls; a wrap of the index to the next block appears after 624, 397 or 227 numbers only.", "anchors": ["FDPS/MT.hpp:MT::init_genrand", "FDPS/MT.hpp:MT::genrand_int32", "FDPS/MT.hpp:MT::genrand_res53", "FDPS/MT.hpp:MT::genrand_real1", "FDPS/MT.hpp:MT::genrand_real3", "FDPS/particle_system.hpp:ParticleSystem::getSampleParticle"]}
{"id": "C80", "title": "The text of the snapshot files is XML that gives back every array bit by bit", "statement": "writeVTP of objects and of constraints writes a .vtp file, and rank 0 a .pvtp file that names the files of all ranks. For an XML reader and a VTK reader written independently (tags, attributes in quotes, base64 with a UInt32 byte count, little-endian numbers): the text of any file whose array names have no quotes, < or &, whose values fit their types and whose arrays have less than 4 GiB is one XML document, and reading it gives the same counts, names, types, components and values, for all doubles including infinite ones and NaN. Objects and constraints with 32-bit ids give such files. The parallel headers (also of unstructured grids, and those with point data only) read back as the lists of arrays and file names they were written from. A restart in doubles from the texts of all ranks gives every object once in order, with its ids and flags exactly, sizes and velocities rounded to float, and every coordinate of its position precise to 2^-51 of that coordinate and half of the object. Rounding to float has a relative error of 2^-24 (plus 2^-150) up to the largest float, is exact for numbers with 24 bits, and done twice changes nothing. Refuted: a finite number of 2^128 becomes infinite in the file, small ones become zero, and names are not escaped.", "quantifier": "all objects, constraints, numbers of ranks, names, thread schedules, all doubles (bit by bit); files below 4 GiB per array", "why_tests_cant": "A wrong attribute, a missing quote or a wrong byte order makes a file unreadable only for a reader that checks it; padding of base64 depends on the length modulo 3, rounding of floats on particular numbers.", "anchors": ["Util/IOHelper.hpp:IOHelper::writeDataArrayBase64", "Util/IOHelper.hpp:IOHelper::writeHeadVTP", "Util/IOHelper.hpp:IOHelper::writePVTPFile", "Util/IOHelper.hpp:IOHelper::writePVTUFile", "Sylinder/Sylinder.hpp:Sylinder::writeVTP", "Constraint/ConstraintCollector.cpp:ConstraintCollector::writeVTP", "Sylinder/SylinderSystem.cpp:SylinderSystem::setInitialFromVTKFile"]}
{"id": "C81", "title": "Mixed targets and sources: every target gets every near source once, on whatever rank and across periodic faces, and the ranks do not matter", "statement": "MixPairInteraction takes targets and sources of different types on all ranks. After updateSystem and computeForce, with particles whose setPos and getPos agree and whose rank owns the domain that holds them, and for any functor that looks only at pairs of a target and a source of which one lies in the search sphere of the other: force i of a rank is what the functor adds up over the images (along periodic axes) of sources that are near target i of that rank, each image exactly once, none left out, whatever rank the source is on; targets are not taken as sources; forces are in the order of the targets. Left-over memory, thread schedules, the order of calls and messages do not matter. If the contributions commute, the force of a target is the same for any number of ranks, any distribution of targets and sources, any leaf and group limits. The class does not move particles to their ranks: for a target that is not in the domain of its rank a pair can be missed.", "quantifier": "all particle types, functors, numbers of ranks and particles, distributions, periodic axes, search radii, schedules, left-over memory (exact arithmetic)", "why_tests_cant": "A missed or doubled image depends on where particles lie relative to domains, boxes and octree cells; tests compare one distribution of random points on one number of ranks.", "anchors": ["MPI/MixPairInteraction.hpp:MixPairInteraction::updateSystem", "MPI/MixPairInteraction.hpp:MixPairInteraction::computeForce", "MPI/MixPairInteraction.hpp:MixEPI::copyFromFP", "MPI/MixPairInteraction.hpp:MixEPJ::copyFromFP", "MPI/MixPairInteraction.hpp:MixEPJ::setPos", "FDPS/tree_for_force.hpp:TreeForForce::calcForceAll"]}
{"id": "C82", "title": "In IEEE doubles the neighbour search on all ranks finds every near particle once, in spite of rounding, when no axis is periodic", "statement": "calcForceAll in doubles with open boundaries: let coordinates and search radii be finite and at most 2^100, each particle lie in the domain of its rank, and no coordinate be more than 2^26 times the search radius of some particle. Then the root cell computed from all particles holds every particle and gives it a key of 63 bits (no conversion of a negative or too large number), no step fails, and the functor is called so that every particle of the rank is a target once, with all particles among the sources that lie in its search sphere or whose search sphere holds it (for the latter up to a relative 2^-50 of the squared distance), whatever rank they are on, none twice, and its force is what the functor makes of it. Thread schedules, left-over memory and message orders do not matter. With radii far below the resolution of the coordinates the root cell may have no size (C69_lone_doubles_refuted).", "quantifier": "all numbers of ranks, threads and particles up to the 32-bit limits of the tree, all finite doubles in the range, payloads, functors, schedules, left-over memory (doubles bit by bit)", "why_tests_cant": "Whether a particle at the edge of the root cell gets a valid key depends on the last bits of its coordinates and of the sums that make the cell; a test needs these very numbers.", "anchors": ["FDPS/tree_for_force.hpp:TreeForForce::calcForceAll", "FDPS/tree_for_force_impl.hpp:TreeForForce::calcCenterAndLengthOfRootCellImpl", "FDPS/tree_for_force_impl.hpp:TreeForForce::setRootCell", "FDPS/key.hpp:MortonKey::getKey", "FDPS/tree_for_force_impl.hpp:TreeForForce::exchangeLocalEssentialTreeReuseListImpl"]}
{"id": "C83", "title": "Boundary::check accepts what project returns for points off the surface, and exactly triples that pass three geometric tests", "statement": "check(query, project, delta) of a spherical shell, a wall or a tube with positive radius and unit normal or axis returns true exactly if the projected point is within eps = 1e4 * epsilon of the surface, the length of delta is the distance from the query to the projected point up to eps, and delta is not zero and the cosine of its angle with the normal towards the allowed side is at least 1 - eps. The result of project for a query off the centre (or axis) passes exactly if the query is not on the surface. It does not test that the projected point is the nearest one; in doubles not-a-number passes, and for radii of some ten thousand correct projections can fail.", "quantifier": "all boundaries, all vectors (exact arithmetic); counterexamples in doubles", "why_tests_cant": "The test programs call check on random points, which never lie on the surface or at the centre, and on results of project only, so that what check lets through is not seen.", "anchors": ["Boundary/Boundary.cpp:SphereShell::check", "Boundary/Boundary.cpp:Wall::check", "Boundary/Boundary.cpp:Tube::check"]}
{"id": "C84", "title": "The logged constraint stress is the sum over all two-sided constraints of all ranks per object and kT", "statement": "calcConStress after writeBackGamma on every rank: with log level info or below, the record ColXF holds by rows the sum over the unilateral constraints between two objects, on all ranks, of magnitude times stress per unit magnitude, divided by the global number of objects times KBT, and BiXF the same over the bilateral ones; constraints with a wall or a fixed point (one-sided) are left out. The records do not depend on how constraints are split over ranks and threads or on the order of the reductions. Above level info nothing is computed. With KBT = 0 the records are not numbers, even without constraints.", "quantifier": "all numbers of ranks, queues and constraints, all schedules (exact arithmetic); the counterexample in doubles", "why_tests_cant": "A test has one distribution over ranks; a block counted twice or left out on one rank changes a number nobody has computed otherwise.", "anchors": ["Sylinder/SylinderSystem.cpp:SylinderSystem::calcConStress", "Constraint/ConstraintCollector.cpp:ConstraintCollector::sumLocalConstraintStress", "Constraint/ConstraintCollector.cpp:ConstraintCollector::writeBackGamma"]}
{"id": "C85", "title": "Spheres that touch get one constraint each in doubles, with the right gap, on any number of ranks", "statement": "calcForceAll with the collision functor CalcSylinderNearForce, in doubles and without periodic axes: on each rank every block pushed to the queues is between one of its objects and an object of larger id on any rank, and no pair of ids has two blocks, on all ranks together. If two objects are treated as spheres, with sizes between 2^-100 and 2^100 and collision buffers between 2^-40 and 1, and touch or overlap by their exact coordinates, they get a block, and its gap delta0 is finite and right up to 2^-49 of the sum of their radii.", "quantifier": "all numbers of ranks, threads and objects, all schedules, all doubles in range; objects that are not spheres may be among them", "why_tests_cant": "Rounding in the search (root cell, keys, tree, exchange) and in the functor may lose a pair for a few arrangements out of very many; tests compare with the same rounded arithmetic.", "anchors": ["Sylinder/SylinderNear.hpp:CalcSylinderNearForce::operator()", "Sylinder/SylinderNear.hpp:CalcSylinderNearForce::sp_sp", "Sylinder/SylinderNear.hpp:SylinderNearEP::getRSearch", "Sylinder/SylinderSystem.cpp:SylinderSystem::collectPairCollision"]}
{"id": "C86", "title": "The random test problem of the solvers has a symmetric positive definite matrix on any number of ranks if enough is added to the diagonal", "statement": "The constructors BCQPSolver(localSize, diagonal) and CPSolver(localSize, diagonal): whatever B and D are drawn on each rank, as long as no column loses all its entries the matrix built (row pointers, local columns, column map) can be applied to every vector and is the block diagonal matrix of B^T D B + diagonal without the entries of at most 1e-7; it is symmetric. If D is not negative and diagonal is larger than localSize * 1e-7, it can always be applied and is positive definite, so that the problem has one solution. With diagonal = 0 neither holds: dropping entries can make it indefinite, and an empty column makes the local columns point past the column map. generateRandomBounds gives at each place the two numbers drawn, in order, so lower is at most upper.", "quantifier": "all sizes, numbers of ranks and drawn numbers (matrix: exact arithmetic; bounds: finite doubles)", "why_tests_cant": "The numbers drawn differ from run to run, and the rare draws that lose a column or the sign are not met.", "anchors": ["Constraint/BCQPSolver.cpp:BCQPSolver::BCQPSolver", "Collision/CPSolver.cpp:CPSolver::CPSolver", "Constraint/BCQPSolver.cpp:BCQPSolver::generateRandomBounds"]}
{"id": "C87", "title": "In IEEE doubles MixPairInteraction gives each target every near source of all ranks once, when no axis is periodic", "statement": "updateSystem and computeForce in doubles with open boundaries: coordinates and radii as in the neighbour search in doubles (C82), each target and source in the domain of its rank. Then no step fails, positions are not changed, and the forces of a rank are in the order of its targets. The force of a target is the functor's sum over sources of whatever rank that it accepts, none twice, among them every accepted source in the search sphere of the target or whose search sphere holds the target (the latter up to a relative 2^-50 of the squared distance). If all accepted sources are of this kind and the order of summation does not matter for the functor, the force is the same bit by bit for all distributions over ranks, boxes, domains and tree parameters.", "quantifier": "all numbers of ranks, threads, targets and sources up to the limits of the tree, all finite doubles in range, all particle types whose setPos and getPos agree, functors, schedules and left-over memory (doubles bit by bit)", "why_tests_cant": "A pair lost through rounding in one of many steps (wrap, root cell, keys, tree, exchange) shows for few arrangements only; the test program compares sums that hide one missing source.", "anchors": ["MPI/MixPairInteraction.hpp:MixPairInteraction::updateSystem", "MPI/MixPairInteraction.hpp:MixPairInteraction::computeForce", "FDPS/particle_system.hpp:ParticleSystem::adjustPositionIntoRootDomain", "FDPS/tree_for_force.hpp:TreeForForce::calcForceAll"]}
{"id": "C88", "title": "The LCP test reports the number of negative entries of the solution and of A x + b on all ranks and the largest shortfall of each", "statement": "test_LCP prints on rank 0: the number of negative entries of x over all ranks, the largest amount by which one is below zero (0 if none is), and the same for y = A x + b. A count or an error is zero exactly when no entry is negative, and neither depends on how the entries are spread over the ranks. Choices 0 to 2 run one solver with the given tolerance, 3 and 4 a gradient solver with 100 times the tolerance and Newton afterwards; any other choice runs none and the report is about x = 0. The report says nothing about complementarity, and a vector of NaN gets a clean report.", "quantifier": "all solvers and matrices, all right hand sides, tolerances and choices, all finite vectors on any number of ranks with at most 2147483647 entries (doubles bit by bit)", "why_tests_cant": "The report is what a reader of the test output goes by; a count that forgets a rank or a maximum that is not reduced shows only when another rank has the error.", "anchors": ["Collision/CPSolver.cpp:CPSolver::test_LCP"]}
{"id": "C89", "title": "The neighbour search tree always has room for all objects and is seldom built again", "statement": "After initialize or reinitialize and any number of collections of pairs, with the number of objects on all ranks changing at will below 2^30, there is a tree and it was initialised for at least 4/3 of the present number of objects. With k trees built since initialisation the number of objects has at some time been (3/2)^(k-1) times the first number. The test against 1.5 times the old number in doubles is exact. From 2^30 objects on the size overflows int; collecting pairs without a tree stops at an assertion.", "quantifier": "all sequences of initialisations and collections, all numbers of objects below 2^30, any value of the member before initialisation (doubles bit by bit)", "why_tests_cant": "Growth across the factor 1.5 happens after many steps of a growing system only; tests keep the number of objects fixed.", "anchors": ["Sylinder/SylinderSystem.cpp:SylinderSystem::setTreeSylinder", "Sylinder/SylinderSystem.cpp:SylinderSystem::collectPairCollision", "Sylinder/SylinderSystem.cpp:SylinderSystem::initialize", "Sylinder/SylinderSystem.cpp:SylinderSystem::reinitialize"]}
{"id": "C90", "title": "The usage text of the command line parser tells all about each option, and an error message names a true cause", "statement": "The usage text can be read back: for every declared option, in order, its short and long spelling, its description, and either that it is required or its default value. Asking for help with -h or --help writes this text with the defaults as declared, whatever else is missing or malformed. run writes a message to the error stream exactly when it returns false, and the message names a token that belongs nowhere, the first required option that is missing, or an option whose tokens do not parse, with the hint at --help only if help is enabled. An empty command line is accepted exactly when requirements() is 0. An optional default option of a number type has no value, so that the usage text reads an indeterminate one.", "quantifier": "all lists of options of all types and callbacks, all command lines, all number conversions; names without tab and newline, descriptions and printed values on one line for the reader", "why_tests_cant": "Texts are not looked at by the tests; a wrong name in a message, or a default that was overwritten before it is printed, stays unnoticed.", "anchors": ["Util/cmdparser.hpp:Parser::usage", "Util/cmdparser.hpp:Parser::run", "Util/cmdparser.hpp:Parser::howto_required", "Util/cmdparser.hpp:Parser::howto_use", "Util/cmdparser.hpp:Parser::no_default", "Util/cmdparser.hpp:Parser::disable_help", "Util/cmdparser.hpp:Parser::requirements"]}
{"id": "C91", "title": "The folder of a snapshot is there on all ranks before its files are opened", "statement": "All ranks make the folder of a snapshot, in any order and with any earlier value of errno: if its parent is a folder and the name is free or a folder, all calls return, the folder is there and nothing else changed. If it cannot be made, all ranks leave the program. Over a whole run from an existing ./result the folder of each snapshot is there when its files are opened. A restart does not make ./result, so without it the first snapshot ends the program. A plain file of that name is taken for the folder.", "quantifier": "all paths, file systems, numbers and orders of ranks, errno values, sequences of snapshots", "why_tests_cant": "The race between ranks and the stale errno show only for certain timings; tests run on one rank in a fresh folder.", "anchors": ["Util/IOHelper.hpp:IOHelper::makeSubFolder", "Sylinder/SylinderSystem.cpp:SylinderSystem::writeResult", "Sylinder/SylinderSystem.cpp:SylinderSystem::initialize"]}
{"id": "C92", "title": "The file of the simulation box shows the box to six digits", "statement": "A reader of legacy VTK files gets from simBox.vtk one cell between eight points, whose corners are the corners of the box, each number rounded to the nearest one of six decimal digits and then to the nearest double. The error is at most 1/100000 of the number, and a lower bound is never shown above an upper bound. A box that is wider than 1/100000 of its distance from the origin is shown with positive width; a box of width 1 at 1000000 is shown flat. When the file cannot be opened, writing to it is undefined.", "quantifier": "all finite boxes (doubles bit by bit, the file character by character)", "why_tests_cant": "The file is only looked at in a viewer; boxes far from the origin, tiny or huge ones, where %g changes notation or loses the width, are not tried.", "anchors": ["Sylinder/SylinderSystem.cpp:SylinderSystem::writeBox"]}
{"id": "C93", "title": "The file of points that all ranks dump together holds all points of all ranks", "statement": "All ranks open the same file for writing, collect, and write what they have. In whatever order they take their steps, when all are done the file holds exactly the points and values of all ranks in the order of the ranks, each number to six digits after the point, whatever was in the file before; no opening of the file can empty it after the points were written, and some rank can always go on. The program is left exactly when the number of values does not fit the number of points. Numbers below half a millionth are written as zero, and coordinates beyond a multiple of three are dropped without a message.", "quantifier": "all numbers of ranks, distributions of points, numbers of values per point, interleavings of the ranks, old contents, doubles up to 2^1000 bit by bit", "why_tests_cant": "A late rank that empties the file is a race that needs a certain timing; the function is not called by any test.", "anchors": ["Util/PointDistribution.cpp:dumpPoints"]}
{"id": "C94", "title": "The distance of two boxes is the least distance of their points", "statement": "For boxes that are not inside out, getDistanceMinSQ of a box and GetDistanceMinSq of two boxes, or of a box and a point, return the squared distance of the nearest points, in exact arithmetic; in a periodic space they return the least one over all images as long as the centres are not further apart than a period, and never more than it otherwise. contained of a box holds exactly when the two boxes have a point in common (upper faces of the first not counted), not when one contains the other. In doubles getDistanceMinSQ of boxes that overlap is exactly zero, even where differences overflow, and it does not matter which box comes first; GetDistanceMinSq, which computes from the centres, may be positive for boxes that touch, and zero does not mean that boxes overlap.", "quantifier": "all boxes, points and periods (exact reals); all boxes of finite doubles, bit by bit", "why_tests_cant": "Tests use a few boxes with round coordinates; the least distance is over all pairs of points and all images.", "anchors": ["FDPS/orthotope3.hpp:Orthotope3::getDistanceMinSQ", "FDPS/orthotope3.hpp:Orthotope3::contained", "FDPS/ps_defs.hpp:GetDistanceMinSq"]}
{"id": "C95", "title": "The text of a key in base two is the key", "statement": "GetBinString of a 32-bit or 64-bit number returns 32 or 64 digits that, read in base two with the highest digit first, are the number; so different keys have different texts, and sorting the texts as in a dictionary sorts the keys.", "quantifier": "all 32-bit and 64-bit numbers", "why_tests_cant": "A test can try a few of the 2^64 numbers; the branch for zero and the number of rounds are easy to get wrong by one digit.", "anchors": ["FDPS/ps_defs.hpp:GetBinString"]}
