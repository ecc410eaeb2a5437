# Formal model of nonasymptotic-mp in Rocq: design

`properties.jsonl` lists the properties in English, `MANIFEST.json` maps each of
them to theorem names, `rocq/theories/` holds the model and the proofs and
`seeded/LOG.jsonl` records the bug-seeding experiments.

## 1. How the model is organised

For every component `X` there are up to three files:

* `X_Model.v`  – executable Gallina functions mirroring the Python functions branch
  by branch, each with a comment citing file and lines.  Exceptions are values
  (`result`/`option`); loops that are not structurally recursive take fuel and
  return an explicit out-of-fuel value that the theorems exclude.
* `X_Proofs.v` – lemmas (and small specification predicates that do not mention the
  model's helpers).
* `X_Props.v`  – the property theorems only: statement, `exact lemma`, a
  non-vacuity `Example` next to each, and `Print Assumptions`.

`RepoTests.v` replays the repository's own deterministic tests (`tests/test_envs.py`, the
segment tests of `tests/test_utils.py`) on the models, one Example per test, as a check that
the models agree with what the authors expect of the code.  All agree.  Two tests
(`test_last_cube_odd_length`, `test_last_cube_even_length`) collect errors without asserting;
their expected points are wrong on nine of ten values (`t_last_cube_unasserted`).  The
randomised tests are covered by theorems: `gray_samples` (samples within the walls),
`radius_more_samples_keep_solution` (`tests/test_exps.py`), `numerical_bound_monotone`
(`test_existence_requires_fewer_samples`, as not-more rather than fewer).  The sampling tests
of `sampler.py` on polygons are covered by the theorems about that file's model.

## 2. Number domains

* PRM graphs, weights, radii, gray-code corridor, box
  collision, experiment logic: rationals `Q` and integers.  Every finite float64
  is a rational, so all inputs the program can receive are covered; what is
  idealised is the *rounding of arithmetic operations*.
* `bound.py` formulas, norms, segment test, straight-line and narrow-passage
  geometry: reals `R` (they need sqrt, log,
  powers, pi).  Again rounding is idealised.
* The one place where rounding changes behaviour qualitatively – the float
  midpoint `int((lb+ub)/2)` of the doubling search on big integers – is modelled
  with binary64 round-half-even on integers.
* Distances inside PRMs are an arbitrary function `dist : P -> P -> Q` standing for
  the float64 returned by `np.linalg.norm`; the motion checker is an arbitrary
  `check : P -> P -> bool`; the sampler is an arbitrary stream `nat -> P`.

## 3. External libraries: modelled behaviour (assumptions about code not in /repo)

* networkit `Graph` (10.1): undirected weighted graph kept as adjacency arrays;
  `addNodes(k)` returns the last new id and ids are never reused; `addEdge`
  appends to both arrays, with `checkMultiEdge=True` it is a no-op if the edge
  exists; `removeEdge` replaces the entry by the last one of the array and pops;
  `removeNode` removes the incident edges and the node; `iterEdgesWeights` is a
  live cursor over the arrays; `writeGraph`/`readGraph` round-trip.  These are
  written down in `NkGraph_Model.v`.  Theorems that depend on the live cursor say so
  and are accompanied by their snapshot-iteration counterpart.
* `BidirectionalDijkstra`/`SPSP`: any routine that returns a minimum weight path
  (specification predicate); a verified executable instance shows that the
  hypothesis is satisfiable.
* kgraph/pynndescent: arbitrary neighbour arrays; theorems that need exact
  neighbours state it as a hypothesis.
* numpy/pandas/shapely/triangle/pybullet: only the array-index semantics that the
  code relies on.  `pd.DataFrame(tuples, columns=c)` fills short rows with missing
  values up to the longest row and raises if that is not `len(c)`;
  `Series.unique` counts a missing value as one value.
* sympy `GrayCode(n).generate_gray()`: the standard reflected binary code as bit
  strings (`gray` in `Gray_Model.v`); networkx `DiGraph`: `predecessors` and
  `successors` list the edge ends, unknown nodes raise, and `dfs_successors` of a node of
  a path graph reaches exactly the later nodes.
* pybullet_tools (`pbu`): `get_box_geometry(w, l, h)` is the box of half extents
  (w, l, h)/2; `multiply` of two unrotated poses adds their points;
  `get_oobb_vertices` gives the eight corners; `interpolate_poses` is a parameter;
  `create_box` is centred at its point; `sample_aabb` draws uniformly and `aabb_empty` compares
  the corners; `get_oobb` of a wall has the identity rotation; `pairwise_collision` is arbitrary.
* pybullet_tools for `kuka_primitives.py` (`Prim_Model.v`): poses are rigid motions with
  `multiply`/`invert`; the simulator is the joint positions and base pose of every body;
  `get_link_pose` is an arbitrary function of the configuration, `pairwise_collision` an arbitrary
  function of two bodies' poses and configurations; `inverse_kinematics` returns a configuration whose
  link has the target pose and leaves the robot in it (`ik_exact`); `plan_joint_motion` returns a path
  from the current to the goal configuration that is clear of the obstacles it is given (`plan_exact`);
  `sample_placement` returns the pose in which it leaves the body (`valid_draw`); converting a pose to
  six numbers and back gives the same pose.  `is_placement` is arbitrary.
* pybullet_tools for running turtlebot plans (`Exec_Model.v`): `Trajectory.apply` sets one
  configuration after the other, `Attach` stores the body's position relative to the rover and removes
  its pose from the state, `Detach` undoes that, and `State.assign` puts the attached bodies in place
  after every step.  `control_commands` (`--simulate`) is not modelled.
* scipy `ConvexHull` lists the corners of a rectangle counterclockwise (`hull4`).
* Triangulation of sampled polygons: `covers` is inclusion of discs, `point_on_surface` returns
  a point of the set if there is one, and triangle with switch `p` keeps what cannot be reached
  without crossing a segment from a hole point or from far away (`SamplerHoles_Model.v`).
* argparse: long options only, as written down in `Main_Model.v` (exact names, `--name=value`,
  unambiguous prefixes, negative numbers as values); every error ends the script.
* the shell of the job scripts (C156, C159; LLsub starts the ranks 0 .. size-1): the last line of the script is one command whose words are
  separated by blanks; `os.mkdir`, `open` and `glob` act on a list of directories and a map from paths
  to contents; `LLsub` and `chmod` are events.
* the shell and sbatch in the deployment of the planning runs (C160): an unquoted line is cut at its blanks, an unset variable is empty, `[ x -eq y ]` fails unless both are numbers of 64 bits, `--array=a-b` starts the tasks a .. b; pddlstream's `create_parser` adds options with other names
* pandas in the aggregation script (C161): a column of a file that holds some text is read as text entirely; `concat` unites columns; `mean` and `std` skip missing values, are nan for no (at most one) value and raise on text
* pybullet's createMultiBody (C162): parent 0 is the base, parent k > 0 is link k-1, positions are relative to the parent; a new body gets a number that no present body has
* decimal.Decimal with 100 digits (C164): reals; `int(a / b)` of integers raises OverflowError when the rounded quotient is at least 2^1024; sympy's sieve (C165): the first two primes
* numpy's argsort (C167): any order that sorts, ties broken in any way; searchsorted and intersect1d as defined in `SortAnn_Model.v`
* pandas frames of the narrow passage results (C168–C170): lists of rows; selections are filters in the order of the rows, dictionary keys keep the order of their first use
* the tables of C171–C173: lists of records; `product` is `list_prod`, `searchsorted` the number of smaller entries, np.sqrt(20) any rational
* ast.literal_eval (C174): flat dictionaries in braces, texts in single quotes without quotes or backslashes, True, False, decimal numbers; everything else counts as an error; np.std divides by the number of values
* networkit's SPSP (C177) returns the length of a shortest path between any two nodes of a graph with non-negative weights, or infinity; the formats .nkb and .npy (C178) are not modelled
* pynndescent (C179): NNDescent.neighbor_graph lists each sample itself first at distance 0, then its nearest others in order, n_neighbors in total; the approximation and duplicate samples that come before the sample itself are not modelled
* figures (C180): a figure is its lists of red and blue segments in drawing order; projections to coordinates, marks and the window are not modelled
* pybullet in the motion test (C181): joint positions and poses of bodies; set_joint_positions pairs joints and values and asserts that there are as many; plan_joint_motion and plan_nonholonomic_motion are one parameter that reads the world
* shapely regions in the coverage check are point sets: `union`, `intersection` and
  `convex_hull` are the set operations, a `Polygon` is the hull of its vertices and the answers
  of `covers`/`within`, the areas and the clock are arbitrary.
* Random generators: arbitrary streams / arbitrary draws in their documented range.
  For the probability claims (C127–C133) the sampler draws independently and uniformly from a
  finite population (a list; of any size), so a probability is a count over all sequences of draws.
  `fair_balls` states that every ball of the given radius around the listed centres holds at least its
  share (ball volume / environment volume) of the population, `sparse_balls` that it holds at most that
  share around members: the two facts about the uniform density that `bound.py` relies on.
  An event is bounded through each of its decidable parts (`event_at_most`).

## 4. Plan per property

| id | modelled | proof plan |
|----|----------|------------|
| C01 | `Bound_Model.v`: rho, S(m), log2 bound over R, search over Z | log-concavity of partial binomial sums => concave bound => the search's test is upward closed => least m |
| C02 | same | same concavity lemma |
| C03 | same | inclusion of test sets + minimality |
| C04 | `Search_Model.v`, values with NaN/inf | loop invariant |
| C05 | binary64 midpoint on Z | measure below 2^53; explicit stalling state, `_refuted` |
| C06 | R formulas | algebra with sqrt |
| C07 | R formula | exact value; `_refuted` |
| C08 | Q search with arbitrary function | invariant + halving measure |
| C09 | R formulas | algebra; MVT/convexity for KL |
| C10 | R formulas | x + ln(1-x) <= -x^2/2; `_refuted` for the clamp |
| C11 | fuelled loop | never returns for any fuel; `_refuted` |
| C12 | `Prm_Model.v` FullConn state machine | invariant over op lists |
| C13 | all three PRMs | invariant |
| C14 | error paths | equality of states; `_refuted` for NN |
| C15 | FullConn + query | edge-set inclusion, path transport |
| C16 | query as add/remove on adjacency arrays | exact restoration |
| C17,C18 | query + shortest path spec | path lemmas; verified Bellman-Ford instance |
| C19 | tile/repeat | list lemmas: NoDup, completeness |
| C20 | inverse index table | list lemmas |
| C21 | edge-list to graph | fold invariant |
| C22 | exact-KNN spec | short-edge preservation |
| C23,C24 | live cursor removal and snapshot removal | invariants; `_refuted` witness |
| C25,C26 | set_nearest_neighbors | fold invariant; `_refuted` witness |
| C27,C28 | NN state machine | invariant over op lists; `_refuted` witness |
| C29,C30,C31 | RadiusPRM state machine | measure; `_refuted` witnesses |
| C32 | reset | state equality |
| C68 | FullConn query | reversed trails |
| C69 | RadiusPRM growth | reaching lists => complete; `_refuted` witness with 50 samples |
| C70 | RadiusPRM reset | `_refuted` witness |
| C33 | `Ann_Model.v` | list lemmas |
| C34,C35 | `Geom_Model.v` detect_intersect over R | nra/field; `_refuted` witnesses |
| C36–C39 | NarrowPassage | planar lemma + projection |
| C40,C41 | StraightLine over R | convexity, projection |
| C42 | dimension of vectors | length; `_refuted` |
| C43–C46, C71–C74 | GrayCode: the whole class over Q | induction on bits and layers; case analysis on legs; convexity inside a cube; index induction for the motion loop; `_refuted` witnesses |
| C47,C48 | sampler index arithmetic, affine map | list induction; nra |
| C49,C50,C75 | SAT 2D over R, one-pair and batched | separating functional; Helly (Radon) + fan triangulation for exactness; `_refuted` witnesses |
| C51,C76 | SAT 3D over R | linear dependence, Radon, Helly in space on the six slabs; edge-edge axes by Cramer; `_refuted` witnesses |
| C52,C53,C77,C78 | turtlebot BagOfBoundingBoxes over R | exactness of the planar test, floor arithmetic; `_refuted` witnesses |
| C54 | interpolate_vectors over R | induction |
| C55,C56 | `Anytime_Model.v`: anytime loop over an arbitrary planner | loop invariant, measure on the sizes; `_refuted` |
| C57,C79 | `Turtle_Model.v`: STRIPS domain, initial state, goal | equivalence with a small machine (simulation both ways); invariant; constructive plan and counting argument |
| C59 | post_process | simulation with the machine; `_refuted` for two rovers |
| C58,C80,C81 | `Kuka_Model.v`: STRIPS domain, initial state, goal | same; phase invariant per object with labels for the lower bound |
| C60,C82 | command classes, postprocess_plan | list induction; chain of configurations |
| C83 | assembly of the insertion trajectory | list induction; `_refuted` |
| C61–C63 | `Sched_Model.v`: slicing, experiment lists, crash/resume sessions | list induction; invariant "the file holds the first m seeds"; `_refuted` witnesses |
| C64,C88 | `Trial_Model.v`: narrow-passage search, records, data frame | loop invariant, log2 measure; `_refuted` |
| C65 | `Stretch_Props.v`: tolerance formula over R | field/sqrt |
| C84–C87 | `Sched_Model.v`, second half: deployment, array jobs, resume directory | list induction, link to the anytime loop; sorting; `_refuted` |
| C89,C90 | `Trial_Model.v`: straight-line search, knn trial | loop invariant; list induction; `_refuted` |
| C91–C93 | `Net_*.v`: the radii of `bound.py` used by the roadmaps of `prm.py` | tube between two balls (convexity), chain of equal steps along the curve; for feasibility a least-upper-bound argument on the curve; `_refuted` for short queries |
| C94 | `NetEnv_Props.v`: instances in `envs.py` | instance of C91; `_refuted` |
| C95–C98, C101 | `Bin_Model.v`: hollow shapes, bin grid, clearance and sampled region of the kuka world (`Bin_Props.v`, `BinEnv_Props.v`) | case analysis on walls, intermediate value theorem; instance of the bound's monotonicity; `_refuted` |
| C99,C100 | `Bin_Model.v`: motion check of the kuka world | exactness of the box test (C51), nearest checked pose; `_refuted` |
| C102 | `Agg_Model.v`: aggregation of result files | list induction on the directory; `_refuted` |
| C103–C106 | `Cover_Model.v`: body of the coverage check of the straight line as a transition system over plane regions | convexity of the admissible set, rays keep it, invariant of the dictionary and of the cover; `_refuted` |
| C107–C109 | `World_Model.v`: walls of the turtlebot hallway worlds (`World_Props.v`) | case analysis on walls; clopen subset of the unit interval; intermediate value theorem; `_refuted` |
| C110–C112 | `World_Model.v`: constructor of the box environment, sampled region (`WorldCheck_Props.v`) | hull of a turned box, instance of C52; spacing below wall thickness |
| C113–C116 | `World_Model.v`: placements, target sizes, initial configuration (`WorldPlace_Props.v`) | induction on attempts and bodies; quarter power; `_refuted` |
| C117 | `Pose.v`, `Prim_Model.v`: rigid poses, top grasps (`PrimGrasp_Props.v`) | group laws of rigid motions, rotation matrices |
| C118–C121 | `Prim_Model.v`: inverse kinematics with restarts, trajectories, collision test, motion streams (`Prim_Props.v`, witnesses in `PrimEx_Props.v`) | induction on attempts, waypoints and fluents with a frame condition on the simulator state; `_refuted` |
| C122,C123 | `Prim_Model.v`: insertion stream and execution of a plan (`PrimInsert_Props.v`, witnesses in `PrimEx_Props.v`) | simulation relation between the domain's machine and the simulator; `_refuted` |
| C124–C126 | `Prim_Model.v`: placement loop of load_world, facts of pddlstream_from_problem (`PrimTask_Props.v`, witnesses in `PrimTaskEx_Props.v`) | induction on objects with frame conditions; refinement to the task of C80; `_refuted` |
| C127 | `Vc_Props.v`: set systems, traces, balls, against `compute_ss_comb_sum` | induction on the points; linear dependence of lifted points |
| C128 | `Prob.v`, `EpsNet_Props.v`: probability as a count over all draw sequences | double sampling, exchange of pairs, C127; C01 and C06 for the formulas |
| C129 | `NetProb_Props.v`: sampler feeding `grow_to_n_samples` of the full roadmap | C128 and C91 |
| C130–C132 | `Tail_Props.v`: a sample with k others within a radius | exponential moments, Hoeffding's lemma, union bound; exact small populations for `_refuted` |
| C133 | `KnnProb_Props.v`: the neighbour roadmap grown from draws | union bound of C128 and C130 with the neighbour roadmap's stretch theorem |
| C134,C135 | `NarrowRun_Model.v`: the narrow-passage trial on the roadmaps of `Prm_Model.v` | refinement of the stateful search to C64's search; C12, C17 and C24 for the roadmaps |
| C136–C138 | `Stream_Model.v`: `get_anytime_motion_fn` on the nearest-neighbour roadmap, calling a checker of arrays | invariant over the attempts; each attempt is reduced to graph and shortest-path lemmas of the roadmap properties; C52 and C110–C111 for the boxes and hallways |
| C139-C141 | `Log_Model.v`: `StreamToLogger.write` and `print`, what a turtlebot run logs, `time_success_plot.py` and `bound_plot.py` up to drawing, over strings of 256 character codes | induction over characters, lines and files; the parsers (regex search, `int`, `float`, `strip`, `replace`, `splitlines`) are executable models, numbers are exact decimals |
| C142,C143 | `Anim_Model.v`: frames, limits and `update` of `animate_knn_prm`; matplotlib as a canvas of points and lines | induction over frames; the images as a list equality |
| C144 | `Prm_Model.v` (radius roadmap), `Bound_Model.v`, `Prob.v` | a net along the curve links by radius; the event that there is none is bounded as in C129, the cut of neighbours by the tail of C130 |
| C145,C146 | `Exec_Model.v`: apply_commands on the commands of `post_process`, `get_ik`; streams as in C137 | the machine of `Turtle_Props.v` simulated by positions, induction over the plan; a witness on the middle line of the hallway |
| C147,C148 | `Corner_Model.v`: `corner` (and the first, replaced `hallway`, which has the same body); checker and streams as in C110, C137 | walls as level sets of the maximum norm; intermediate value theorem for accepted motions |
| C149 | `SamplerHoles_Model.v`: hole points of `sample_from_mpolygon` and the region triangle keeps, rings as abstract discs | descent along nested holes; reachability by curves; intermediate value theorem for convex rings; `_refuted` witnesses |
| C150–C153 | `Main_Model.v`: argparse for long options, `main` of the kuka script as events, `main` of the turtlebot script up to the stream arguments | induction on tokens and attempts; non-interference by rewriting; `_refuted` witnesses |
| C154, C155 | `Count_Model.v`: the sample counts of a turtlebot query, the bounds it samples, the fields of the four worlds' problems | sign of the ball measure by parity of the dimension; explicit count at 2^53; `_refuted` witnesses |
| C156–C158 | `Submit_Model.v`: the submission script with its directory, files and shell script as text, resuming, the tuner as a sequence of submissions | words of the script's last line; induction over the calls with an invariant on directories and files; `_refuted` witnesses |
| C159 | `Job_Model.v`: the scheduling code of the trial scripts from `sys.argv` and the JSON configuration to the calls of the trial functions, with the exceptions in between | positions in products by division; permutation of the slices; decimal numerals read back; `_refuted` witness; `JobErr_Props.v`: induction over the loop for any configuration; `More_Props.v`: missing files |
| C160 | `Shell_Model.v`: the submitted lines, `sbatch --array`, the three job scripts, `turtlebot_move/run.py`'s options, the directories of a run; argparse from `Main_Model.v` | words of a line; loop with a counter by induction; numerals read back; `_refuted` witness; `More_Props.v`: where the directories lie |
| C161 | `AggStat_Model.v`: the aggregation script from the newest directory to the printed statistics, with columns, missing values, text and exceptions | pairwise form of the variance; permutation; `_refuted` witnesses |
| C162 | `KukaWorld_Model.v`: link bodies, hollow bodies, load_world with its dictionaries, get_fixed, sinks and the map from objects to obstacles | induction over the bodies added with fresh numbers; point sets of boxes; text of names; `_refuted` witnesses; `More_Props.v`: the sides of each category |
| C163 | `Notebook_Model.v`: blumer_bound, compare_bounds with its four columns | induction over the dimensions with positions; the shape of the failure bound for every probability below two |
| C164 | `Notebook_Model.v`: the bound and the search with decimals, blumer_bound_decimal | simulation of the float search (all comparisons scale by ln 2); `_refuted` witness with computed binomials |
| C165 | `Notebook_Model.v`: the two curves of the Halton comparison | square roots, bounds on pi, the failure bound at the floor of 25 / d^2 |
| C166 | `Notebook_Model.v`: _batch_net_search with its outcomes, _partition_curves_into_equal_chunks | induction over the rows; slices put together; the failure bound is antitone in the volume |
| C167 | `SortAnn_Model.v`: brute_force_ann with searchsorted and intersect1d | sorted lists: places below a value; sets of an intersection; `_refuted` witness |
| C168 | `NarrowTab_Model.v`: the estimates of cell 7 | counting relation against filters; `_refuted` witness |
| C169 | `NarrowTab_Model.v`: the frame of cell 10 with its outcomes | rows traced to their setting; least counts of C163; monotonicity in the ball; numeric bounds for the witness |
| C170 | `NarrowTab_Model.v`: the tables and headers of cell 15 | induction over rows and columns; uniqueness of the matching row; `_refuted` witnesses |
| C171 | `RadTab_Model.v`: the table of cell 23 over the search of C08 | strict monotonicity of the relative entropy; invariant of the halving loop; induction over the product |
| C172 | `RadTab_Model.v`: the ratios of cell 27 | Forall2 over the product; the certified ball holds less than k/n; closed form of the net radius |
| C173 | `PlotRes_Model.v`: cell 4 of `plot_results.ipynb` | field identities, monotonicity; Blumer's bound; exponential against polynomial growth |
| C174 | `Scatter_Model.v`: cells 1 and 2 of the three scatter notebooks, with ast.literal_eval for flat dictionaries as an automaton over characters | induction over lines and files; the printer of C139 read back; exact set of raising inputs |
| C175 | `Scatter_Model.v`: cell 3; `Shell_Model.v` for the deployed arguments | case analysis; sums over outcomes, square roots |
| C176 | `Scatter_Model.v` | `_refuted` witnesses run through the model; all groups equal |
| C177 | `Mode_Model.v`: the switch in_mp_exp_mode, _compute_spsp and query_all_graph_connections around the roadmaps of `Prm_Model.v` | invariant over histories (the table belongs to a graph with the same edges); `_refuted` witnesses |
| C178 | `Mode_Model.v`: save | case analysis; the invariants of the three roadmap classes |
| C179 | `Lib_Model.v`: get_ann and the lists of pynndescent, below the nearest neighbour roadmap of `Prm_Model.v` | simulation of two histories; trails with loops cut out; `_refuted` witness |
| C180 | `Fig_Model.v`: cells 5 and 6 of vis_narrow_passages.ipynb, cells 1 and 3 of vis_straight_line_env.ipynb over `Prm_Model.v` | edge lists without repetition against links; right answers of queries; `_refuted` witnesses |
| C181 | `Fluent_Model.v`: ObjectPose, Conf, the base joints and get_motion_fn of the turtlebot | worlds described pointwise; induction over the fluents; `_refuted` witnesses |
| C182 | `Bound_Model.v`: compute_numerical_bound with and without tolerance | bounds on pi by the cosine series, powers of two in Z; Bernoulli's inequality; `_refuted` witness |
| C183 | `Design_Model.v`: cells 3-21 of the design notebook over batch_net_search | monotone formulas; least counts compared cell by cell; `_refuted` witnesses |

A property whose full statement is false of the code has status `partial` in
`MANIFEST.json`, with a `_refuted` theorem giving a witness and, where there is
one, the part that does hold.

## 5. Trusted base

* Coq 8.16.1 kernel (and `vm_compute` where a proof evaluates a closed term).
* Axioms: only those of the standard library's classical reals
  (`ClassicalDedekindReals.sig_forall_dec`, `ClassicalDedekindReals.sig_not_dec`,
  `FunctionalExtensionality.functional_extensionality_dep`, and, where
  real analysis lemmas are used, `Classical_Prop.classic`).  Every theorem is
  followed by `Print Assumptions`; section 8 lists the output.
* Coq's real and rational division is total (`x / 0` is a number).  Where the code
  would divide by zero the theorem's hypotheses exclude it or the model tests for
  it first (`detect_intersect`).
* The faithfulness of the Gallina transcription and of the library assumptions in
  section 3.

## 6. Not modelled

the notebooks apart from the functions of C163–C176 and the cells of C180 and C183, matplotlib (apart from the animation of C142) and pybullet visualisation, pandas/CSV formatting, the cluster's scheduler,
areas in the coverage check of the straight line (C103–C106 model the body that its first
statement disables),
GPU/OMPL code, wall-clock time, the kgraph and PyNNDescent back ends of `ann.py` (`get_ann`
only selects one; the batch interface is modelled as an arbitrary function).

## 7. Findings

Behaviour of the code that contradicts what a reader would expect, each with a proved witness:

| where | what | theorem |
|---|---|---|
| nonasymptotic/bound.py | float midpoint of the doubling search stalls above 2^53 | `doubling_search_terminates_refuted` |
| nonasymptotic/bound.py | net radius from a probability meets twice the requested failure probability | `net_radius_from_prob_sound_refuted` |
| nonasymptotic/bound.py | closed-form effective radius is not certified when clamped at 1 | `eff_conn_rad_certified_refuted` |
| nonasymptotic/bound.py | linear radius search never advances its radius | `linear_search_terminates_refuted` |
| nonasymptotic/bound.py | mean-variant Hoeffding bound divides by the square it should multiply by; generic Chernoff bound is used below the mean, where it is false | `hoeffding_mean_variant_sound_refuted`, `chernoff_generic_bound_sound_refuted` |
| nonasymptotic/bound.py | effective radius fails with more than the stated probability in environments smaller than the unit ball | `eff_conn_rad_probability_refuted` |
| nonasymptotic/prm.py | a rejected grow forgets the radius of the neighbour roadmap | `nn_rejected_grow_no_effect_refuted` |
| nonasymptotic/prm.py | edges removed while iterating are skipped | `nn_set_radius_removes_long_refuted` |
| nonasymptotic/prm.py | reducing k differs from building with the smaller k | `nn_reduce_k_is_rebuild_refuted` |
| nonasymptotic/prm.py | radius and k settings depend on the order of calls | `nn_settings_order_independent_refuted` |
| nonasymptotic/prm.py | first build of the radius roadmap has edges beyond the radius | `radius_edges_within_radius_refuted` |
| nonasymptotic/prm.py | growth after a query uses wrong vertex ids | `radius_growth_ids_after_query_refuted` |
| nonasymptotic/prm.py | growth of the radius roadmap may miss edges; reset keeps the doubled k | `radius_growth_complete_refuted`, `radius_reset_fresh_refuted` |
| nonasymptotic/prm.py, bound.py | the (1+tol) guarantee fails for short queries | `net_short_query_stretch_refuted` |
| exps: narrow passage | the last distance (or power of two) is reported for max_connections: it need not work, may grow with more samples and may exceed max_connections; with one distance max_connections is not tried; more samples can destroy the solution of a neighbour trial | `radius_reported_ub_works_refuted`, `radius_reported_ub_decreases_refuted`, `radius_nan_means_unsolvable_refuted`, `nearest_reported_ub_within_max_refuted`, `nearest_more_samples_keep_solution_refuted` |
| nonasymptotic/envs.py | segment test reports disjoint collinear segments | `segment_test_exact_refuted` |
| nonasymptotic/envs.py | narrow passage rejects degenerate motions; vectors have one coordinate too many | `narrow_clear_motions_accepted_refuted`, `narrow_curve_dimension_refuted` |
| nonasymptotic/envs.py | gray-code curve runs the wrong way for dim 2 and odd length | `gray_curve_refuted` |
| nonasymptotic/envs.py | gray-code motion check accepts motions through walls, is asymmetric and incomplete | `gray_motion_sound_refuted`, `gray_motion_symmetric_refuted`, `gray_motion_complete_refuted` |
| nonasymptotic/envs.py | inner approximation of the coverage check is cut short (line 202); coverage check depends on unit length | `inner_approx_refuted`, `length_scaling_refuted` |
| turtlebot_move/separating_axis.py | repeated vertices and unequal vertex counts give wrong verdicts | `repeated_vertex_refuted`, `unequal_vertices_refuted` |
| turtlebot_move/streams.py | motion check steps over thin obstacles and depends on the batch | `motion_check_sound_refuted`, `motion_check_batch_refuted` |
| turtlebot_move/streams.py | adaptive clearance is more than twice the true one; zero gap in hallway() | `adaptive_delta_refuted`, `plain_hallway_delta_refuted` |
| turtlebot_move/streams.py | a returned trajectory can cut corners; the motion stream raises when no sample is near an end, with budget left, and when a factor close to one repeats a size | `stream_trajectory_clear_refuted`, `stream_goes_on_refuted`, `stream_sizes_grow_refuted` |
| turtlebot_move/streams.py | adaptive planning ends below the theoretical sample count | `adaptive_reaches_bound_refuted` |
| turtlebot_move/problems.py | placing targets need not end; initial configuration outside the limits | `placements_terminate_refuted`, `init_conf_limits_refuted` |
| turtlebot_move: plots | neither plot script can read a log of run.py; failed runs and logs with equal names are dropped from the success rate; a print of several values takes several log lines | `time_success_reads_runs_refuted`, `bound_plot_reads_runs_refuted`, `success_rate_all_runs_refuted`, `time_success_all_logs_refuted`, `print_is_one_line_refuted` |
| turtlebot_move/run.py | post-processing two rovers raises or detaches another object | `two_rovers_key_error_refuted`, `two_rovers_wrong_object_refuted` |
| kuka: box test | half extents are applied after the rotation | `box_test_misses_refuted`, `box_test_false_alarm_refuted` |
| kuka: insertion | waypoints without inverse kinematics are dropped; clearance over-estimated; start on the boundary of the sampled region; motion check unsound | `insert_path_reaches_goal_refuted`, `insert_delta_clearance_refuted`, `start_neighbourhood_sampled_refuted`, `kuka_motion_sound_refuted` |
| kuka: primitives | Kin configurations and insertions apply the approach offset, so objects end one or two centimetres above the poses that were checked | `kin_conf_holds_pose_refuted`, `insert_leads_between_confs_refuted`, `executed_pose_refuted` |
| kuka: world | placing objects need not end; objects without a bin are dropped silently and make the problem unsolvable; teleport checks nothing | `placement_ends_refuted`, `problem_solvable_refuted`, `teleport_checked_refuted` |
| nonasymptotic/prm.py: animation | repeating adds every line again; the axes ignore the path's ends | `animation_repeat_same_refuted`, `animation_path_in_view_refuted` |
| turtlebot_move/streams.py | other targets are no obstacles, a carried target can pass through them | `execution_targets_apart_refuted` |
| turtlebot_move/problems.py | corner: dd is not the slack of the passage; with dd <= 0 the start is in collision although the robot fits | `corner_fits_solvable_refuted` |
| nonasymptotic/sampler.py | a polygon around the fixed hole point (-100, -100) is not sampled; a hole divided by a nested polygon is sampled in part | `mpolygon_cut_refuted` |
| kuka_carry/run.py | --factor has type int, so its default 1.1 cannot be given; --seed, --num-targets, --teleport and --randomize-delta have no effect | `kuka_factor_refuted` |
| kuka_carry/run.py | main never ends if no world has a problem, and stays connected after a failed subplan | `kuka_ends_refuted` |
| bound.py | in an even dimension a negative clearance gets the count of its absolute value; hallway and corner leave hallway_gap at 0 and so plan for a negative clearance | `impossible_clearance_refuted` |
| problems.py | random_obstacles gives its problem no obstacles, so that every query raises ValueError | `random_world_refuted` |
| submit_and_run_experiment_job.py | a job is submitted without its configuration when the file is missing; names with blanks break the job's paths | `missing_config_refuted` |
| tune_experiment_triples.py | values that are not positive are submitted; names of tuning experiments begin one another, so that resuming picks the wrong one | `tune_resume_refuted` |
| exps/config/narrow_micro_test_run.json | has dims_to_test where the script reads radius_dims_to_test and knn_dims_to_test: every process raises KeyError | `shipped_all_refuted` |
| deploy_experiments*.sh | the variable n in the directory name is never set; kuka tasks of different argument sets that start in the same second share a directory | `own_directory_refuted` |
| aggregate_runtimes_for_tuning.py | raises KeyError on the neighbour trial's tables; leaves out the first row of a file, not the first run | `statistics_reported_refuted`, `first_run_left_out_refuted` |
| kuka_carry/run.py | the floor is not among the bodies planned around; the colour given to create_hollow is ignored | `floor_not_fixed_refuted`, `colour_ignored_refuted` |
| numerical_bound_comparisons.ipynb | blumer_bound_decimal takes natural logarithms and is below the certified count | `natural_log_bound_refuted` |
| test_contrived_knn_strategy.ipynb | brute_force_ann searches the divided data for coordinates that were not divided | `ann_cube_refuted` |
| narrow_clearance_exps_results.ipynb | the largest number of neighbours is compared with nothing | `knn_limit_refuted` |
| narrow_clearance_exps_results.ipynb | all predictions for radii use the ball of the last radius (late binding) | `prediction_refuted` |
| narrow_clearance_exps_results.ipynb | failure bounds above one stand in the column of success rates | `theory_p_refuted` |
| narrow_clearance_exps_results.ipynb | the tables of nearest neighbours of the full configuration raise IndexError | `full_run_refuted` |
| narrow_clearance_exps_results.ipynb | tables of nearest neighbours are headed by the sample counts of the radius tables | `knn_header_refuted` |
| designing_tractable_experiments.ipynb | the table of effective radii ends in a ValueError when a count has few neighbours | `radius_table_refuted` |
| designing_tractable_experiments.ipynb | radii of a dimension not listed use the volume of the next larger one | `volume_refuted` |
| plot_results.ipynb | the ball uses delta where the theorem has epsilon | `rho_refuted` |
| plot_results.ipynb | natural logarithms in place of base 2 overstate the theoretical probability | `shown_refuted` |
| time_success_scatter.ipynb | logs with equal names in different directories are mixed | `point_of_run_refuted` |
| time_success_scatter.ipynb | runs that did not end are left out of the success rate | `rate_all_runs_refuted` |
| time_success_scatter_adaptive.ipynb | adaptive runs with different gaps, buffers and angles are averaged into one point | `one_setting_refuted` |
| prm.py | the pairs of a roadmap cannot be queried with their distances, as in_mp_exp_mode is never turned on | `query_all_refuted` |
| prm.py | with the switch on, choosing fewer neighbours raises after the edges are gone | `switch_fewer_neighbours_refuted` |
| prm.py | with the switch on, a refused growth leaves a table that does not fit | `switch_refused_growth_refuted` |
| ann.py | without kgraph each sample counts as its own neighbour: roadmaps differ, and one neighbour means none | `library_refuted` |
| notebooks | the printed number of edges of a full connection roadmap counts a loop per sample | `printed_edges_are_pairs_refuted` |
| notebooks | the figure after asking for fewer neighbours does not join every sample to its nearest ones | `reduced_figure_shows_nearest_refuted` |
| turtlebot problems.py | a configuration made without values drops the positions that it reads and cannot be assigned | `conf_reads_joints_refuted` |
| turtlebot streams.py | get_motion_fn cannot read the poses of the turtlebot's own problems | `own_poses_refuted` |
| prm.py | switched off during a change and on again, a roadmap answers from the old shortest path table | `switch_later_refuted` |
| bound.py | a large stretch tolerance needs as many samples as existence; the test's comparison holds only for moderate tolerances | `existence_fewer_refuted` |
| designing_tractable_experiments.ipynb | the text describes boxes of volume 2 and nets of a quarter of the clearance, the code uses boxes of volume 3 and nets of the clearance | `described_box_refuted` |
| experiment scripts | resuming counts rows, reuses seeds, skips and repeats experiments | `row_resume_refuted`, `seed_fresh_refuted`, `seed_repeat_refuted`, `seed_missing_refuted` |
| experiment scripts | short records shift columns; last radius never checked; knn seed passed as length | `short_row_refuted`, `line_upper_complete_refuted`, `knn_env_unit_line_refuted` |
| deployment scripts | kuka repetitions all use seed 1; fixed sizes are tried with one sample less; resume matches name prefixes; aggregating twice doubles rows | `kuka_runs_distinct_refuted`, `fixed_size_tries_n_refuted`, `resume_same_name_refuted`, `aggregate_again_refuted` |

## 8. Output of `Print Assumptions` for the theorems of `MANIFEST.json`

**No axioms** ("Closed under the global context"), 309 theorems:

adaptive_job, adaptive_one_group, adaptive_one_point, adaptive_queue_exact,
adaptive_reaches_bound_refuted, adaptive_single_attempt, aggregate_again_partial,
aggregate_again_refuted, aggregate_complete, animation_images, animation_in_view,
animation_path_in_view_refuted, animation_raises, animation_repeat_same_refuted,
animation_repeats, animation_result, answers_agree_with_query, answers_with_switch,
anytime_growth, anytime_no_error_refuted, anytime_path_bound_refuted, anytime_result,
anytime_terminates, anytime_uses_budget_refuted, array_jobs, base_conf_back, blank_name_refuted,
bound_plot_exact, bound_plot_reads_runs_refuted, bound_plot_run_raises, call_values,
carried_object_put_down, chunks_exact, command_bodies_exact, conditions_partition,
conf_assigned, conf_reads_joints_refuted, deploy_counts, deploy_each_once, deployed_sets,
directories_differ, domain_consistent, domain_is_machine, doubling_search_certified,
doubling_search_certified_nan_refuted, doubling_search_diverges_beyond_2_53,
doubling_search_no_internal_error, doubling_search_overflow_iff,
doubling_search_terminates_partial, doubling_search_terminates_refuted, file_date_index,
finished_job, first_entry_fails_refuted, fixed_size_attempt, fixed_size_tries_n_refuted,
float_numeral, fluent_order, full_conn_grow_samples, full_conn_monotone,
full_conn_queries_repeatable, full_conn_query_empty_iff_infinite, full_conn_query_optimal,
full_conn_query_preserves, full_conn_query_symmetric, full_conn_rejected_grow_no_effect,
full_conn_reset_fresh, full_conn_returns_exception, full_conn_roadmap_exact, gray_corridor,
gray_curve, gray_curve_refuted, gray_motion_answers_refuted, gray_motion_complete_refuted,
gray_motion_down_partial, gray_motion_ends_free, gray_motion_finishes, gray_motion_same_cube,
gray_motion_several_cubes_refuted, gray_motion_sound_refuted, gray_motion_symmetric_refuted,
gray_motion_up, gray_probabilities, gray_samples, gray_wall_distance_exact,
halving_search_certified, halving_search_near_optimal, halving_search_outcomes,
halving_search_terminates, headers_exact, init_consistent, insert_path_complete,
insert_path_reaches_goal_refuted, insertion_releases, int_numeral, interior_rings_complete,
is_out_csv_iff, job_covers, job_date_read, job_exact, knn_env_unit_line_refuted,
knn_equal_refuted, knn_job, knn_too_few_raises, knn_trial_records, kuka_adaptive_min,
kuka_consistent, kuka_deployed, kuka_disconnects_refuted, kuka_ends, kuka_ends_refuted,
kuka_factor_growth, kuka_factor_refuted, kuka_factor_values, kuka_is_machine, kuka_job,
kuka_job_settings, kuka_names_differ, kuka_needs, kuka_options_refuted, kuka_report, kuka_runs,
kuka_runs_distinct_refuted, kuka_seed_refuted, kuka_solvable, kuka_unused_options,
kuka_used_options, kuka_world, library_by_name, library_refuted, line_combos_exact, line_job,
line_search_raises, line_search_sound, line_search_two, line_upper_complete_refuted,
linear_search_decided_by_first_test_partial, linear_search_terminates_refuted,
literal_eval_repr, log_read_back, lookup_table_faithful, missing_config, missing_config_refuted,
missing_key, motion_raises_exactly, motion_stream_ends, motion_stream_exact, motion_test_exact,
motion_test_raises, moves_separated, mpoly_rings_complete, narrow_combos_exact, narrow_job,
narrow_passage_figures, narrow_search_critical, narrow_search_one, narrow_search_sound,
narrow_trial_marks_seed, narrow_trial_rows, nearest_more_samples_keep_solution_refuted,
nearest_neighbour_figures, nearest_reported_ub_within_max_refuted, nearest_trial_rows,
nn_certified_radius_honest, nn_graph_exact, nn_grow_samples, nn_never_answers, nn_query_optimal,
nn_query_preserves, nn_reduce_k_is_rebuild_refuted, nn_reduce_k_subgraph_of_rebuild,
nn_rejected_grow_no_effect_refuted, nn_reset_fresh, nn_roadmap_always_valid, nn_set_k_exact,
nn_set_radius_keeps_short, nn_set_radius_removes_long_refuted,
nn_settings_order_independent_refuted, nn_short_edges_after_rejected_grow_refuted,
nn_short_edges_survive, no_connections_raises, no_plan, nothing_run, odd_numbers,
one_more_neighbour, one_neighbour_is_itself, one_setting_refuted, option_numbers,
option_text_exact, options_given, options_joined, other_keys, own_directory_refuted,
own_poses_refuted, padding_width, parse_line_aligned, parsed_complete, plan_command_continuous,
point_of_run_refuted, post_process_correct, print_blank, print_is_one_line_refuted, print_line,
print_splits, printed_edges_are_pairs_refuted, printed_edges_count_loops, py_index_exact,
pynn_certified, query_all_enumerates, query_all_refuted, radius_edges_within_radius_refuted,
radius_first_build_complete, radius_grow_always_finishes, radius_growth_complete_refuted,
radius_growth_edges_within_radius, radius_growth_ids_after_query_refuted,
radius_growth_ids_without_queries, radius_growth_keeps_complete,
radius_more_samples_keep_solution, radius_nan_means_unsolvable_refuted, radius_never_answers,
radius_query_optimal, radius_query_preserves, radius_reported_ub_decreases_refuted,
radius_reported_ub_works_refuted, radius_reset_fresh_refuted, radius_trial_rows,
readlines_exact, reduced_figure_shows_nearest_refuted, resume_after_submit, resume_dir_latest,
resume_exact, resume_missing_refuted, resume_same_name_refuted, reverse_command,
rings_become_cycles, row_resume_exact, row_resume_gap, row_resume_loses, row_resume_no_repeat,
row_resume_refuted, run_directories, run_starts_exact, sauer_shelah_count, save_exact,
saved_roadmaps, scatter_draws, scatter_exact, scatter_raises, search_exact, second_run,
seed_fresh_refuted, seed_missing_refuted, seed_repeat_refuted, seed_restarts,
seed_resume_complete, seed_resume_once, seed_resume_stalls, shipped_all_refuted,
shipped_complete, short_row_refuted, single_as_multi, single_hole_points, slice_entries,
slices_partition, snapshot_prune_exact, statistics_rows, straight_line_figures,
stream_no_exception, stream_path_checked, stream_query_restores, stream_sizes_grow_refuted,
submit_runs, submit_when, submitted_experiment, success_rate_all_runs_refuted,
success_rate_exact, sweep_never_raises, switch_fewer_neighbours_refuted, switch_later_refuted,
switch_refused_growth_refuted, switch_too_late, task_needs, task_solvable,
teleport_checks_refuted, text_dims, time_line_exact, time_success_all_logs_refuted,
time_success_exact, time_success_raises, time_success_reads_runs_refuted,
time_success_run_raises, triangle_sample_inside, triangle_sample_uniform, triangle_weights,
triples_text_exact, triples_text_read, tune_exact, tune_no_type, tune_positive_refuted,
tune_resume_refuted, turtle_deployed, turtle_job, turtle_runs, turtle_seed,
two_rovers_key_error_refuted, two_rovers_wrong_object_refuted, update_before_build_rejected,
volume_found, volume_own

**`ClassicalDedekindReals.sig_forall_dec`**, 8 theorems:

ik_fails_exactly, ik_sound, interpolation_keeps_vertices, iterator_exact, motion_sound,
movable_test_exact, placement_sound, teleport_checked_refuted

**`ClassicalDedekindReals.sig_forall_dec`, `FunctionalExtensionality.functional_extensionality_dep`**, 66 theorems:

ann_cube_refuted, ann_exact, ann_unit, bin_cavity_exact, bin_clearance_exact, bin_region,
bin_region_volume, bins_disjoint, box_volume_same, category_outcomes, category_walls,
certified_conf_holds, colour_ignored_refuted, corner_fits_exact, corner_free_exact,
described_box_refuted, estimate_exact, estimate_order, executed_pose_offset, fixed_exact,
floor_not_fixed_refuted, hallway_free_exact, hole_points_outside, hollow_body_exact,
hollow_shape_exact, insert_delta_clearance_partial, insert_delta_clearance_refuted,
insert_delta_value, insert_execution, insert_misses_both_ends, inserted_two_cm_above,
insertion_pairs, knn_limit_refuted, length_space_exact, line_motion_exact,
line_motion_symmetric, line_samples_connect, line_volume_exact, link_body_exact,
load_world_succeeds, names_exact, narrow_accepted_inside_obstacle_refuted,
narrow_accepted_motion_free, narrow_accepts_iff, narrow_clear_motions_accepted_refuted,
narrow_motion_symmetric, narrow_probabilities, narrow_samples_free, obb_covers_iff_centred,
placement_exact, placement_terminates, placements_sound, placements_terminate_refuted,
robot_in_floor, samples_fill_bounds, sampling_bounds_tight, sampling_region,
segment_test_direction_free, segment_test_exact, segment_test_exact_refuted,
segment_test_never_misses, start_neighbourhood_sampled_refuted, stats_meaning, stats_unique,
top_conf_one_cm_above, volume_refuted

**`ClassicalDedekindReals.sig_forall_dec`, `ClassicalDedekindReals.sig_not_dec`, `FunctionalExtensionality.functional_extensionality_dep`**, 89 theorems:

accepted_motion, balls_vc_dimension, balls_vc_dimension_tight, bin_escape, bounding_box_exact,
box_test_exact, box_test_false_alarm_refuted, box_test_misses_refuted, box_test_never_misses,
connection_radius_range, cover_sound, executed_pose_refuted, failed_query_honest, figure_counts,
figure_exact, file_order_irrelevant, first_run_left_out_refuted, flat_vertices_exact,
grasp_gen_exact, inner_approx_exact_partial, inner_approx_refuted,
insert_leads_between_confs_refuted, interpolation_refines, kin_conf_holds_pose_refuted,
knn_tables_raise, kuka_motion_batch_refuted, kuka_motion_exact, kuka_motion_sound_refuted,
large_tolerance_refuted, length_scaling_refuted, line_clearance, line_curve_covers,
line_distance_exact, line_net_complete, long_environment_fails, motion_check_batch_refuted,
motion_check_empty_refuted, motion_check_sound_refuted, motion_check_symmetric,
motion_checked_exactly, mpolygon_cut_refuted, narrow_curve_dimension_refuted,
narrow_curve_extra_coordinate, narrow_distance_misses_curve, narrow_distance_of_curve_refuted,
narrow_net_complete_refuted, neighbour_file_read, net_nn_stretch, net_radius_at_most_clearance,
net_radius_stretch, net_short_query_stretch_refuted, no_directory, padding_keeps_distances,
placement_ends_refuted, problem_assertion, problem_is_task, problem_provides_kin,
problem_shortest_plan, problem_solvable_refuted, problem_values, processed_query_covered,
radius_recovered, ragged_file_rejected, rate_all_runs_refuted, rate_exact, recorded_sets_sound,
repeated_vertex_refuted, report_exact, separating_axis_exact, separating_axis_never_misses,
shrunk_body_clear, statistics_reported_refuted, std_error_zero, text_raises, time_exact,
tolerance_outside, tolerance_recovered, too_few_bins_unsolvable, top_grasp_exists,
top_grasp_fits, top_grasp_geometry, top_grasps_quarter_turns, trial_tables_report,
unequal_vertices_refuted, updates_equal_rebuild, valid_rows_exact, vec_separating_axis_batch,
vec_separating_axis_exact, vec_separating_axis_never_misses

**`ClassicalDedekindReals.sig_forall_dec`, `Classical_Prop.classic`, `FunctionalExtensionality.functional_extensionality_dep`**, 2 theorems:

polygon_triangulated, triangulated_only_polygons

**`ClassicalDedekindReals.sig_forall_dec`, `ClassicalDedekindReals.sig_not_dec`, `Classical_Prop.classic`, `FunctionalExtensionality.functional_extensionality_dep`**, 150 theorems:

accepted_motion_stays, accepted_path_stays, adaptive_delta_refuted, adaptive_delta_unreachable,
adaptive_outcomes, adaptive_samples_too_few, base2_guaranteed, batch_order, batch_runs,
batch_table, blumer_bound_net, blumer_bound_sufficient, box_check_exact, certified_count_exists,
chernoff_generic_bound_sound, chernoff_generic_bound_sound_refuted,
chernoff_generic_tail_monotone, chernoff_generic_tail_monotone_refuted,
chernoff_kl_bound_one_sample, chernoff_kl_bound_sound, chernoff_kl_tail_monotone,
compare_monotone, compare_order, compare_runs, compare_table, conf_check_exact,
connection_radius_formulas_agree, connection_radius_without_tolerance, corner_ends_exact,
corner_fits_solvable_refuted, corner_motion_stays, corner_straight_rejected, corner_stream,
corner_ways_round, count_needs_clearance, curves_fall, decimal_least, decimal_limit,
decimal_runs, decimal_same, described_net_refuted, draws_in_box, eff_conn_rad_certified_partial,
eff_conn_rad_certified_refuted, eff_conn_rad_probability_partial,
eff_conn_rad_probability_refuted, estimated_entries, execution_delivers, execution_frames,
execution_targets_apart_refuted, existence_fewer_iff, existence_fewer_refuted,
figure_below_threshold, frame_runs, full_conn_feasible_probability,
full_conn_success_probability, full_run_refuted, hallway_clearance, hallway_conf_exact,
hallway_enclosed, hallway_gap_exact, halton_curve, halton_wins_when_fine, hoeffding_bound_sound,
hoeffding_mean_tail_monotone, hoeffding_mean_variant_sound_refuted, hoeffding_tail_monotone,
impossible_clearance_refuted, init_conf_limits_refuted, insert_samples_too_few,
kl_radius_largest, knn_cells, knn_header_refuted, knn_success_probability, knn_table_needs,
large_tolerance_same, line_table_exact, manip_adaptive_set_up, measure_sign,
mpolygon_outside_refuted, narrow_net_radius, narrow_rise, narrow_table_exact,
natural_log_bound_refuted, natural_log_factor, negative_even_same, net_full_conn_feasible,
net_full_conn_stretch, net_probability, net_radius_from_prob_gives_twice,
net_radius_from_prob_net, net_radius_from_prob_sound_refuted, net_radius_short,
nonpositive_odd_overflows, numerical_bound_diverges, numerical_bound_error_iff,
numerical_bound_le_blumer, numerical_bound_least, numerical_bound_monotone, numerical_bound_net,
numerical_bound_outcomes, numerical_bound_permanent, placed_target_valid,
plain_hallway_delta_refuted, plotted_tables, prediction_exact, prediction_refuted,
prediction_when_last_largest, radius_cells, radius_search_sound, radius_success_probability,
radius_success_probability_cut, radius_table, radius_table_made, radius_table_refuted,
random_world_adaptive, random_world_refuted, ratio_below_threshold, ratio_bound,
ratio_figure_below, ratio_table, ratio_table_made, ratio_vanishes, rho_against_ball, rho_factor,
rho_refuted, sampled_curve, sampled_dispersions, sampling_wins_when_coarse, setup_exact,
shown_eventually, shown_refuted, shown_value, stream_goes_on_refuted, stream_teleport_clear,
stream_trajectory_clear_refuted, stream_trajectory_inside, stream_trajectory_near_clear,
suite_counts, tables_run, target_radius_quantile, theory_p_refuted, turtle_count_returned,
unit_ball_volume_correct, unset_gap_count, volume_overestimated, wider_body_fewer_samples,
worlds_set_up, zero_clearance_overflows, zero_clearance_query
