# Formal model of BayesicFitting: design

The model is written in Rocq (Coq 8.16.1) under `rocq/theories`, logical name `Verif`.
The Python source in /repo is read as text only; nothing is run.

## File conventions

| prefix | content |
|--------|---------|
| `M_*.v` | model: definitions only, each with a comment citing file and lines in /repo/BayesicFitting/source |
| `S_*.v` | small specifications, independent of the model |
| `P_*.v` | proofs (lemmas) |
| `T_*.v` | property theorems, with `Print Assumptions` and an `Example` that their hypotheses can be met; some hold their lemmas too |

## Modelling decisions

* Python exceptions are values (`option`, or an error constructor). No theorem relies on a default value of a partial function.
* Random number generators are lists/functions of draws given as arguments; theorems quantify over all draws in the range numpy guarantees.
* Floating point numbers are modelled by real numbers `R` where calculus is needed and by `Z` or an abstract ordered type where only the order matters. Rounding, overflow, NaN and infinities are not modelled (except `-inf`/`None` limits, where the code branches on them).
* numpy arrays are lists; aliasing is modelled only where a property is about aliasing (stated in the comment).
* Numerical routines of numpy/scipy (`linalg.solve`, `lstsq`, `erf`, `random`) are arguments of the theorems with their contract as an explicit hypothesis.

## Plan per property

| id | model | statement / proof |
|----|-------|-------------------|
| C01 | list functions per engine, draws as arguments | `Permutation` of input and output for all draws; lifted over runs by induction |
| C02 | ensemble as list of (id, pars, logL); engine = setWalker at an index | frame theorem for continuous engines; refutation for order engines after a sort |
| C03 | trial loop on fuel-free recursion on trial length | success iff stored; refutation for ReverseEngine |
| C04 | tour length as sum of consecutive distances | rotation/reversal by list induction |
| C05, C06 | sorted list insertion, crop, cached box as a state machine | invariants over operation sequences; refutations where the cache goes stale |
| C07 | loop of NestedSampler with abstract explorer | invariant by induction on iterations |
| C08, C09 | evidence accumulator over `R` | closed forms by induction |
| C10-C12 | SampleList operations | invariants over operation lists; refutation for weed |
| C13, C14 | alterParameters / alterFitindex on lists | characterisation by `nth`/append decomposition |
| C15, C16 | Dynamic/RepeatingModel state machine, shuffle | invariants; permutation argument |
| C17, C18, C20 | inductive chain syntax, evaluation in `R` | refinement to a denotational spec; Coquelicot `is_derive` |
| C19 | FixedModel lists | round trip |
| C21-C24 | priors over `R`, limits as options | round trips, monotonicity, derivatives; refutation of unsetLimits |
| C25, C26 | per-point log likelihoods over `R` | `is_derive`; refutation of faulty alternatives |
| C27, C28, C30 | normal equations on lists of rows | quadratic-form argument; refutations |
| C29, C31 | iteration as state machine with abstract function | invariants; refutations |
| C32, C33 | formulas over `R` | `is_derive`, `is_RInt` |
| C34-C36 | inductive trees | structural induction; refutation |
| C37 | row-major index arithmetic | induction on shape; refutation for F order |
| C38 | Gram-Schmidt over lists of `R` | invariant over call sequences |
| C39-C42 | formulas over `R` | algebra, invariants of the loops |
| C43-C45 | formulas/records | algebra, case analysis |
| C46 | M_Order, M_Phantom | Walkers keep distinct identities; theorems in T_Phantom |
| C47 | M_Nested, M_Order | Information equals mean log likelihood minus evidence; theorems in T_Nested |
| C48 | M_Nested, M_Order | Nested sampling stops for a documented reason; theorems in T_Nested |
| C49 | M_Elem, M_Kernel, M_Order | Two-dimensional kernel models have the shape and the slopes they promise; theorems in T_Kernel2d |
| C50 | M_Dynamic, M_Order, M_Tree | Decision tree moves keep the tree valid; theorems in T_Tree |
| C51 | M_Amoeba, M_Fitter, M_Order | The simplex of AnnealingAmoeba and the end of the search; theorems in T_Simplex |
| C52 | M_SplineUnit, M_Splines | Splines are smooth and complete; theorems in T_SplineUnit, T_Splines |
| C53 | M_Order, M_Steps | Plain steps stay in the box and above the limit; theorems in T_Steps |
| C54 | M_Dynamic, M_Order, M_SplinesDyn | The knots of a dynamic splines model stay in order and its parameters follow them; theorems in T_SplinesDyn |
| C55 | M_PolySurface | A polynomial surface is the polynomial its parameter names say; theorems in T_PolySurface |
| C56 | M_Kepler | A Kepler orbit obeys the laws of Kepler, and the radial velocity its gradients; theorems in T_Kepler, T_Stellar |
| C57 | M_Kepler | A stellar orbit is the tilted ellipse, with its gradients in polar and rectangular coordinates; theorems in T_Stellar |
| C58 | M_SoftMax | Soft-max classification model: outputs, partials and derivative; theorems in T_SoftMax |
| C59 | M_Evidence | The evidence of a fit is the integral of likelihood times prior; theorems in T_Evidence |
| C60 | M_Dynamic, M_Order, M_Start | The first walkers of a nested sampler are prior samples at which the likelihood exists; theorems in T_Start |
| C61 | M_Birth, M_Dynamic, M_Order | Birth, death and structure engines keep the ensemble consistent and above the likelihood limit; theorems in T_Birth |
| C62 | M_BSpline | B-splines: partition of unity, end points, derivatives; theorems in T_BSpline |
| C63 | M_Sines, M_Splines | Sines with an amplitude or frequency that varies: results, partials, slopes and units; theorems in T_Sines |
| C64 | M_Kernel, M_Product, M_Splines | Models made of other models: products, surfaces of splines, pixels, constants; theorems in T_Product |
| C65 | M_Errdis, M_Fitter, M_Landscape, M_Order | What iterative fitters hand to a minimiser; theorems in T_Landscape |
| C66 | M_LogFact | Logarithm of the factorial; theorems in T_LogFact |
| C67 | M_Fitter, M_Limits | A fit within limits puts transgressors at their limit and fits the rest; theorems in T_Limits |
| C68 | M_Fitter, M_Monte | Confidence regions; theorems in T_Monte |
| C69 | M_Errdis, M_Order, M_Sigma | Likelihoods of single data are normalised densities with the documented width; theorems in T_Density |
| C70 | M_ErrXY, M_Gauss2d, M_Order | The likelihood of data with errors in x and y; theorems in T_Gauss2d |
| C71 | M_Errdis, M_Scale, M_Sigma | The noise scale estimated from the residuals is the one of maximum likelihood; theorems in T_Scale |
| C72 | M_Pipe | Partials and derivatives of compound models with several inputs and outputs; theorems in T_Pipe |
| C73 | M_Errdis, M_Multi, M_Scale | Problems with more than one output; theorems in T_Multi |
| C74 | M_Attribs, M_Errdis | Attributes of a problem after changes; theorems in T_Attribs |
| C75 | M_User | Partials of models around a function of the user; theorems in T_User |
| C76 | M_ModelDis | Probability of a model by an arbiter; theorems in T_ModelDis |
| C77 | M_Errdis, M_Football | Strengths of football teams, their partials and priors; theorems in T_Football |
| C78 | M_Elem, M_Order, M_Voigt | The Voigt profile; theorems in T_Voigt |
| C79 | M_Grow, M_Prior | The number of components of a dynamic model stays in range and follows the growth prior; theorems in T_Grow |
| C80 | M_Dynamic, M_Order, M_Repeat | Partials, priors and names of a repeating model; theorems in T_Repeat |
| C81 | M_Average, M_Kepler | Averages over samples, plain and circular; theorems in T_Average |
| C82 | M_Loop, M_Order, M_Salesman | Crossing legs are found and untied, and nearest neighbours visited; theorems in T_Loop |
| C83 | M_Errdis, M_Mixed, M_Order | Mixtures of any two distributions and Bernoulli with classes; theorems in T_Mixed |
| C84 | M_Blobs | The spline blobs of BasicSplinesModel join smoothly; theorems in T_Blobs |
| C85 | M_Config | A NestedSampler and a NestedSolver are put together from consistent parts; theorems in T_Config |
| C86 | M_Boost | Boosting the best walker never makes it worse, and keeps it consistent; theorems in T_Boost |
| C87 | M_BSpline, M_Knots | Averaged knots, knots for interpolation, collocation matrix; theorems in T_Knots |
| C88 | M_Explore, M_Nested, M_Order | Exploring walkers; the phantom sampler keeps its ensemble; theorems in T_Explore |
| C89 | M_Numer, M_Order | Numerical derivatives, the test of partials, and whether parameters have limits; theorems in T_Numer |
| C90 | M_Order, M_UnitBox | The unit box of an engine, copies of phantoms, and the consistency check; theorems in T_UnitBox |
| C91 | M_Tools | Checked attributes, nice numbers and the formatter; theorems in T_Tools |
| C92 | M_Nested, M_Sampler | What a sampler reports: samples of walkers, attributes, iterations, progress, success rates and journeys; theorems in T_Sampler |
| C93 | M_Text | Text of a model; theorems in T_Text |
| C94 | M_Picture | Pictures of fits, samples and movies; theorems in T_Picture |
| C95 | M_Dynamics | Dynamic and modifiable compound models; theorems in T_Dynamics |
| C96 | M_Elem, M_Kernel, M_Units, M_Voigt | Units of parameters; theorems in T_Units |
| C97 | M_Kernel, M_Shape2d, M_Units | Shapes of two-dimensional kernel models; theorems in T_Shape2d |
| C98 | M_Progress | Lines printed by iterative fitters; theorems in T_Progress |
| C99 | M_Progress | Names of parameters of growing models; theorems in T_Progress |
| C100 | M_Accept | Which data a fitter accepts; theorems in T_Accept |
| C101 | M_Accept | Which classes are subclasses; theorems in T_Accept |
| C102 | M_LinIdx | Linear parameters of a mixed model; theorems in T_LinIdx |
| C103 | M_Elem, M_Kepler, M_Kernel, M_Meaning | What the parameters of the elementary models mean; theorems in T_Meaning |
| C104 | M_Tree, M_Treebuild | A decision tree of a given depth, and the text that describes a tree; theorems in T_Treebuild |
| C105 | M_Anomaly, M_Kepler | The three methods for the eccentric anomaly: when they converge and to what; theorems in T_Anomaly |
| C106 | M_History, M_Nested | What a list of samples tells about its history; theorems in T_History |
| C107 | M_Again, M_Nested, M_Order | Running a NestedSampler, and running it again; theorems in T_Again |
| C108 | M_Chain, M_Combi, M_CombiPrior, M_Order | Priors and names of the parameters of a CombiModel; theorems in T_CombiPrior |
| C109 | M_Order, M_RepPrior, M_Repeat | Priors of a RepeatingModel; theorems in T_RepPrior |
| C110 | M_Memory, M_Order | Samples that have been collected do not change any more; theorems in T_Memory |
| C111 | M_DynAttr | Assigning ncomp, minComp, maxComp and deltaNpar of a dynamic model; theorems in T_DynAttr |
| C112 | M_Isolate | Taking a model out of a compound model, and copying a compound model; theorems in T_Isolate |
| C113 | M_Bracket | Parameters of compound models with brackets; theorems in T_Bracket |

## Trusted base

* The Coq kernel (8.16.1). No axiom is added; every theorem is followed by `Print Assumptions`. The axioms that come
  up are those of the standard library's real numbers and of classical logic; the last section lists them per theorem.
  Coquelicot is used for derivatives and integrals; it adds no axiom.
* The reading of the Python source: the comment above each definition says which lines it models and what it leaves out.
* Library routines are arguments with a contract written in the theorem: `numpy.linalg.solve`, `qr`, `inv` (`solver`,
  `qrsolver`, `inverse` in S_Fitter/T_Fitter/T_Qr), random draws (functions or lists of numbers), the explorer of the
  nested sampler, user functions (likelihoods, cost functions, the function to minimise).
* Floats are real numbers (or integers where only order matters). Rounding and overflow are not modelled. NaN and
  infinities are modelled where the code branches on them and a theorem says so (M_Galilean `numF`, M_Prior limits).

## What is modelled

| file | what it models, what it leaves out (more in the comment of each definition) |
|---|---|
| `M_Accept.v` | Model of the check of the data at the start of a fit (BaseFitter.py:218-279, checkNan 466-492; IterativeFitter.py:153-185), and of Tools.subclassof (Tools.py:360-378). Floats are real numbers, infinities or NaN; there is no imageAssistant; arrays have the same length. |
| `M_Again.v` | Model of NestedSampler.sample as a whole (NestedSampler.py:392-492), of what it leaves in the sampler, and of a second call of it. The loop is that of M_Nested; the first walkers, which are made anew in every call (1160-1182), and the random choices are arguments. Reports, plots and the parameters of the model are left out. |
| `M_Amoeba.v` | AnnealingAmoeba (AnnealingAmoeba.py:132-612) in real numbers; the function to minimise is real valued: the second chance for corners with a value that is not finite (343-345) and the repetition of steps that yield NaN (478-481, 486-489, 495-498, 503-506) are left out. Reporting is left out. numpy rows are views on the simplex; xopt is an array of its own or such a view. |
| `M_Anomaly.v` | Model of the other two methods for the eccentric anomaly, Kepplers2ndLaw.eccentricAnomaly0 and eccentricAnomaly1 (Kepplers2ndLaw.py:117-190), in real numbers, with the mean anomaly given; the third one, that is used, is in M_Kepler. The loop stops for all data together. A division by zero in eccentricAnomaly1 can only occur when the eccentricity is 1 or more. |
| `M_Attr.v` | Model of the attributes each parameter of a compound model has: priors and names (Model.py:1007-1120, 1133-1168, 1223-1300; BaseModel.py:304-398). [P] is the type of priors, [N] of names; None is an exception. |
| `M_Attribs.v` | The attributes of a problem: Problem.py, the constructor, __setattr__, __getattr__, setAccuracy and copy. The values that are kept in the instance after they are asked for, are part of the state. |
| `M_Average.v` | Averages over samples: Tools.average (Tools.py:502-543), and what a SampleList answers when it is asked for its averages and standard deviations (SampleList.py:142-187, 226-240, 287-341, 351-372). Simplified: one parameter and real numbers; math.exp( logW ) is the weight. |
| `M_BSpline.v` | bspline.py:52-311, splinelab.augknt (splinelab.py:23-48) and BSplinesModel.py:155-264, in real numbers. An array is a list of numbers, a matrix a list of rows. Left out: memoize (it remembers what was calculated before), plotting, exceptions on an empty list of knots, the making of knots out of a range. |
| `M_Basis.v` | Model of OrthonormalBasis.py. |
| `M_Birth.v` | The engines that change the model of a walker: BirthEngine.execute (BirthEngine.py:79-168), DeathEngine.execute (DeathEngine.py:82-154), StructureEngine.execute and executeOnce (StructureEngine.py:80-160), with Engine.setWalker (Engine.py:153-187), WalkerList.setWalker (WalkerList.py:103-122), Walker.copy and Walker.check (Walker.py:70-119, 181-204). Simplified: the log-likelihood is a function of the model and the list of all parameters; parent and start of a walker, the best walker and the phantoms are left out; the model of a walker is a copy, so that a refused change is not seen outside (Walker.copy 110: problem.copy). None stands for an exception. |
| `M_Blobs.v` | Model of BasicSplinesModel.py: the construction of the basis of blobs (makeBaseBasis 201-236, makePeriodicBasis 238-273, findParameters 331-448, normalizeBasis 275-328) and the use of it (baseResult 451-475, basePartial 478-506, makeKnotIndices 516-529, basicBlob 532-556, baseDerivative 558-583), in real numbers. numpy.linalg.solve is any solution of the linear system; which of the solutions is not said, so the constructions are relations. A matrix is a function of row and column, arrays of fixed size are functions of the index. |
| `M_Boost.v` | Model of Engine.doBoost (Engine.py:192-234) as it is called in Engine.setWalker (183), of the fitter that is prepared in Engine.bestBoost (145-148), and of the lists of PhantomCollection.getList (111-120) and getDynamicList (190-200). The fitter is a function of the initial parameters to the fitted ones (None: it raises, which is caught); logLikelihood is a function of the list of all parameters. |
| `M_Bracket.v` | Model of the parameters that a compound model with brackets keeps: Brackets (Model.py:1728-1746), BracketModel (BracketModel.py:103-140), Model.__init__ with copy (Model.py:166-204), appendModel (Model.py:425-441), the operators (Model.py:1343-1488) and the assignment of parameters (Model.py:222-226). A compound model is the list of its models, its attribute parameters, and npchain; only the parameters of the head are used, a model inside has none. Parameters are values here (how arrays are shared is in M_Isolate); operations and what the models calculate are in M_Chain. |
| `M_Chain.v` | Model of compound models: Model.py, the chain of sub-models joined by + - * / and /. One input value x (ndim = 1), one output value (ndout = 1): numpy works on all x in parallel with the same operations. Floats are reals; division by zero (numpy: inf or nan) is Coq's total division and excluded in the theorems on derivatives. [None] is an exception. |
| `M_Chord.v` | ChordEngine (ChordEngine.py:106-284), in real numbers and in unit coordinates: domain2Unit and unit2Domain are taken as inverse of each other; [logL] is the likelihood as a function of the unit values of the parameters in fitIndex. The debug branch (191-204) is off. |
| `M_Combi.v` | CombiModel (CombiModel.py:127-344): copies of one model, joined by + or *, with parameters tied over the copies. |
| `M_CombiPrior.v` | Model of the priors and the names of the parameters of a CombiModel (CombiModel.py:352-366, 380-398). The priors of the repeated model are a function prior of the number of its parameter (its getPrior; None is an IndexError); all copies have them, as copies are made with their priors (BaseModel.py:126). |
| `M_Config.v` | Model of how a NestedSampler or NestedSolver is put together: setProblem (NestedSampler.py:942-994), setErrorDistribution (NestedSampler.py:1000-1053, NestedSolver.py:227-256), setEngines (NestedSampler.py:1055-1109, NestedSolver.py:258-279), the constructors (NestedSampler.py:326-374, NestedSolver.py:187-195), the settings verbose, copymode and bestUpdate (NestedSampler.py:875-900), and initSample/initWalkers/setInitialEngine (486-504, 1113-1188) as far as the objects that they connect are concerned. Objects have a number as identity. Data, models and limits are values that are handed through. The constructors of problems, distributions and engines are taken to succeed when they can be called with the given arguments. |
| `M_Cyclic.v` | Problem.residuals with cyclic results (Problem.py:118-123, 211-297). |
| `M_DynAttr.v` | The attributes ncomp, minComp, maxComp and deltaNpar of dynamic models: Dynamic.setDynamicAttribute (Dynamic.py:95-128), __setattr__ and __getattr__ (PolynomialDynamicModel.py:149-171, HarmonicDynamicModel.py:152-174, SplinesDynamicModel.py:162-184, RepeatingModel.py:319-333), and what grow, shrink and copy make of them (Dynamic.py:130-205, SplinesDynamicModel.py:150-160, 196-320, RepeatingModel.py:184-189, 211-287). __getattr__ is only asked for what is not in the dictionary of the object; the d_ fields are that dictionary. Of the parameters only the number is kept; the location of a new knot, names and values are in M_Dynamic and M_SplinesDyn. The growth prior is in M_Grow. A bool, which python takes for an int, counts as an integer here. |
| `M_Dynamic.v` | Model of the parts of Dynamic.py and RepeatingModel.py that keep the parameter lists of a dynamic model in step with its number of components. |
| `M_Dynamics.v` | Model of being dynamic or modifiable in a compound model: isDynamic (BaseModel.py:262-266, Model.py:995-1004, Dynamic.py:64-65, PolynomialDynamicModel.py:143-144, HarmonicDynamicModel.py:146-147, RepeatingModel.py:335-336), isModifiable (BaseModel.py:268-272, Modifiable.py:48-49), the check in Model.appendModel (Model.py:411-444), Problem.__init__ with copy (Problem.py:112-115), the engines of ClassicProblem and EvidenceProblem (ClassicProblem.py:126-138, EvidenceProblem.py:74-75, 91-104), and the search for the model to be changed in BirthEngine, DeathEngine, StartEngine and StructureEngine (BirthEngine.py:113-119, DeathEngine.py:115-118, StartEngine.py:108-112, StructureEngine.py:128-132). A model has a number of parameters, npbase, and a class; operations and dimensions are left out. |
| `M_Elem.v` | Model of the elementary models with one input: baseResult, basePartial and baseDerivative. One value of x (numpy works on all of them alike); floats are reals; params[k] is [nth k p 0]. The silent correction of zero or negative parameters (BaseModel.py:218-270) is left out: baseResult is taken at the parameters as given. |
| `M_ErrXY.v` | ErrorsInXandYProblem (ErrorsInXandYProblem.py:84-440) in real numbers. The model is given by its result, derivative and partial in one point (models with one input); numpy arithmetic is elementwise. |
| `M_Errdis.v` | Model of the error distributions: ErrorDistribution.py, GaussErrorDistribution.py, LaplaceErrorDistribution.py, CauchyErrorDistribution.py, ExponentialErrorDistribution.py, UniformErrorDistribution.py, PoissonErrorDistribution.py, BernoulliErrorDistribution.py, MixedErrorDistribution.py, and the part of Problem.py they use. Arrays over the data are written element by element (a [row] is all that belongs to one data point). None is a log-likelihood of minus infinity. |
| `M_Evidence.v` | The likelihood and the evidence of a fit (BaseFitter.py: fitprolog 262-268, getHessian 561-601, makeVariance 636-656, chiSquared 719-747, getScale 806-822, getEvidence 825-849, getLogLikelihood 851-876, getLogZ 878-962), in real numbers. A data array is a function of the data index and its length m, the hessian a function of two indices. Simplified: weights are present or absent, accuracy is absent, one number or an array; the priors of the parameters are present as the list of their integrals (the getIntegral of a uniform prior is the length of its range); the keyword limits as the list of the differences. The determinant of numpy.linalg is an argument. The hessian is that of the latest fit, in the fitted parameters. Left out: normalisations (BaseFitter.normalize). |
| `M_Explore.v` | Model of Explorer.py:72-236 and 282-314, and of PhantomSampler.py:106-265. An engine is any function from the number of the walker, the limit and the walkers to new walkers and a number of moves (Engine.execute); what holds for engines is a hypothesis of the theorems. Left out: what is printed for verbose >= 4 and the checks made then, and that the walkers of an ExplorerThread change at the same time. |
| `M_Fitter.v` | BaseFitter, Fitter and QRFitter in real numbers. Arrays are functions of the index, with their length beside them. The library routines numpy.linalg.solve, qr and inv are parameters of the model (None: LinAlgError); what is asked of them is said in T_Fitter. Image input (map), plotting and the checks on NaNs are left out. |
| `M_Fixed.v` | Model of FixedModel.py: parameters fixed to a value or replaced by a model. One input x; floats are reals. |
| `M_Football.v` | FootballModel.py: results of football matches and their partials. par: all parameters, complexity for each team. One match: k0 the team at home, k1 the one away (the numbers of the teams in xdata). Floats are real numbers, parameters are such that no nan or inf comes up. |
| `M_Galilean.v` | GalileanEngine (GalileanEngine.py:42-361). The numbers are any type with the operations of Python floats; [numR] are the real numbers, [numF] the real numbers with infinities and NaN. Positions are kept in unit coordinates: domain2Unit and unit2Domain are taken as inverse of each other, and [logL], [dLogL] are the likelihood and its partials at the fitIndex parameters as a function of the unit values. |
| `M_Gauss2d.v` | Gauss2dErrorDistribution (Gauss2dErrorDistribution.py:36-255), the error distribution of an ErrorsInXandYProblem. param holds the parameters of the model and the targets, s is the noise scale: allpars = param + [s], so that allpars[-1] and allpars[npars] are both s. Arrays over the data are lists. |
| `M_Grow.v` | How the number of components of a dynamic model goes up and down: constructor and copy of RepeatingModel, HarmonicDynamicModel and PolynomialDynamicModel, the growth prior of Dynamic.setGrowPrior, and the test against it in BirthEngine, DeathEngine and StartEngine. Simplified: only the settings that decide on the number of components are kept; the parameter lists are modelled in M_Dynamic.v, the likelihood test of the engines in M_Birth.v (here every proposal has a sufficient likelihood). The random number of rng.rand() is a real in [0,1). |
| `M_History.v` | Model of what a SampleList tells about its history: the evolutions of its attributes (SampleList.py:390-493), the indices of median and modus that are kept (162-180, 375-388), the flag normalized (208-240) and the averages of parameters of different numbers (287-303, 351-372). Numbers are real numbers. An array of rows of different lengths can not be made: ValueError (numpy 1.24 and later; before that it was an array of arrays, with a warning). Priors are not circular here (circular ones are in M_Average). |
| `M_Hyper.v` | HyperParameter, NoiseScale, and the hyper-parameters of error distributions (HyperParameter.py, NoiseScale.py, ErrorDistribution.py, ScaledErrorDistribution.py, ExponentialErrorDistribution.py, NestedSampler.makeFitlist). |
| `M_Image.v` | Model of ImageAssistant.py. |
| `M_Isolate.v` | Model of taking a model out of a compound model, and of copying one: Model.isolateModel (Model.py:274-319), Model.__init__ with copy (Model.py:166-204) and the links made in Model.appendModel (Model.py:425-438), in a heap of objects and arrays. A slice of an array is a view in the same array. What a model calculates is a number, m_body; m_ok tells whether the method copy of its class succeeds (for one that does not, see C79 and C109). Of the rest of a model nothing is kept: units, names, priors and fixed parameters are in other files. Arrays that are made on the way and dropped (184-193) are left out, and so is the check on dynamic models in appendModel, which a chain that exists has passed. |
| `M_Kepler.v` | Kepplers2ndLaw.py:55-450, RadialVelocityModel.py:94-248 and StellarOrbitModel.py:127-419, in real numbers. Everything is for one data point, except the loop that finds the eccentric anomaly, which stops for all together. Left out: parlist, the attributes in which intermediate numbers are kept. |
| `M_Kernel.v` | Model of the kernels (kernels/*.py), KernelModel.py and Kernel2dModel.py. Floats are reals; arguments are float (an integer array would make Tophat round, through numpy.zeros_like). [numpy.where] on one number is an if. |
| `M_Knots.v` | Model of the knot functions of splinelab.py: aveknt (51-79), aptknt (82-146), knt2mlt (149-183) and spcol (186-221), in real numbers; aveknt also for arrays of integers. (augknt is in M_BSpline.) None is any exception. |
| `M_Landscape.v` | What the iterative fitters hand to a minimiser, and what they do with its answer: MaxLikelihoodFitter.py:104-362, GaussErrorDistribution.py:254-296, CurveFitter.py:117-222, ScipyFitter.py:108-370 (with 390-778) and AmoebaFitter.py:105-218, in real numbers. scipy's minimize and curve_fit and AnnealingAmoeba.minimize are parameters. Left out: plotting, printing, warnings, options, callbacks, user gradients, imageAssistant, getScale. |
| `M_Levmar.v` | LevenbergMarquardtFitter (LevenbergMarquardtFitter.py:129-326) in real numbers. The parameter lists are arrays in a heap, as numpy.asarray (Tools.py:setAttribute) hands them on without a copy and trialfit writes into the one it gets (262). Reporting and plotting are left out; onEdge is always False (257). |
| `M_Limits.v` | BaseFitter.limitsFit (BaseFitter.py:366-441): fit, put the parameters that went beyond the limits of their priors at the limit, and fit the others again. The fit itself is a parameter of the model (any fitter). Brackets inside a chain of models are left out, and so is the printing (430). After an IndexError of getPrior the state is that of before the loop (in the code some parameters are at their limits by then). |
| `M_LinIdx.v` | Model of the linear parameters of a non-linear model (NonLinearModel.py:62-112; the dummies of the other models Model.py:1303-1310; Model.getNumberOfParameters 961-963). A model is its chain; every base model carries its own set of linear indices, and the methods act on the head of the chain. A python set is a list of which only the members count. |
| `M_LogFact.v` | logFactorial (LogFactorial.py:35-120), in real numbers. Left out: arrays of more dimensions. |
| `M_Loop.v` | How the LoopEngine finds two legs that cross (LoopEngine.py:94-155, Tools.isBetween Tools.py:103-108), and how the NearEngine finds the nearest neighbour of a city and remembers it (NearEngine.py:85-146). Real numbers; numpy's division by zero yields an infinity or NaN, which is not between anything. The acceptance of a proposal is in M_Order (loop_once, near_once). |
| `M_Meaning.v` | Model of the initial parameters of the elementary models with one input (the constructors). Nothing is fixed, and no parameters are given by the user; PadeModel is taken with its default, in which one parameter is fixed. What the models compute is in M_Elem. |
| `M_Memory.v` | Model of which arrays of parameters are shared, and which are written to, in a nested sampler: the constructor and the copy of a walker (Walker.py:98-119), the sample that is made of it (Walker.py:121-140), WalkerList.setWalker and copy (WalkerList.py:103-147), Engine.setWalker (Engine.py:153-187) with the phantoms that are stored, and the arrays param, ptry, pedge in GibbsEngine.py:102-172, StepEngine.py:102-184, RandomEngine.py:102-171, ChordEngine.py:128-280 and GalileanEngine.py:119-240. Numpy arrays are objects with an address. Simplified: which values are tried and whether they are accepted are arguments; of the walkers only allpars is left; the phantoms are not weeded; nuisance parameters are left out. |
| `M_Mixed.v` | Model of MixedErrorDistribution.py for parts with any number of hyper-parameters: the parameter lists made in logLdata 146-152 and nextPartialData 181-188 with the assignment that may fail, and of BernoulliErrorDistribution.py for models with more than one output (145-156, 208-232). The rest of the mixture is in M_Errdis.v. |
| `M_ModelDis.v` | The probability of a model: ModelDistribution.py. Fitters and NestedSampler are functions of what they are given; that is their model, their keywords, the weights, and a fixed scale or limits on the scale. |
| `M_Monte.v` | MonteCarlo (MonteCarlo.py), BaseFitter.monteCarloError (BaseFitter.py:777-803) and SampleList.average and monteCarloError (SampleList.py:511-563). numpy.linalg.eigh and the random numbers are parameters of the model. xdata is a type of which only the length is known. |
| `M_Multi.v` | A problem with more than one output per datum: MultipleOutputProblem.py. Arrays are lists of rows. |
| `M_Nested.v` | Model of the nested sampling loop: NestedSampler.py, Explorer.py, SampleList.py. Floating point numbers are reals. |
| `M_Numer.v` | Model of the numerical derivatives and of the checks made with them: Tools.makeNext (Tools.py:253-268), Model.strictNumericPartial (Model.py:1619-1658), strictNumericDerivative (Model.py:1674-1708), testPartial (Model.py:1491-1617), ErrorDistribution.numPartialLogL (ErrorDistribution.py:432-459), Prior.numPartialDomain2Unit and numPartialLog (Prior.py:480-518), hasLimits (BaseModel.py:432-449, Model.py:1197-1216). Numbers are reals; models with one output. None is any exception. |
| `M_Order.v` | Model of the order engines and of the ensemble they act on. Source directory: /repo/BayesicFitting/source |
| `M_Phantom.v` | Model of the phantom bookkeeping: WalkerList.py (insertion, crop) and PhantomCollection.py. Log-likelihoods and parameters are integers: only their order is used by this code (NaN is not modelled). |
| `M_Picture.v` | Model of the pictures: plotFit and plotSampleList (Plotter.py:32-138, 143-278) and SampleMovie (SampleMovie.py:54-146). What is handed to matplotlib is modelled as a value; how matplotlib draws it is not. Arrays of data are not empty, and the indices of kpar are supposed to be in range. |
| `M_Pipe.v` | Partials and derivatives of compound models with several inputs and outputs: the numpy arrays and lists of arrays that are passed along a chain of models in Model.py, and how they are combined. The kind of array (vector, matrix, list of matrices) matters, as numpy broadcasts over the last axes. |
| `M_PolySurface.v` | PolySurfaceModel (PolySurfaceModel.py:74-269) with LinearModel.baseResult, for one data point (x,y), in real numbers. Repeated multiplication of an array is a power. Left out: parlist (a selection of columns) and fixed parameters. |
| `M_Prior.v` | Model of the priors: Prior.py and UniformPrior, JeffreysPrior, LaplacePrior, ExponentialPrior, CauchyPrior, GaussPrior, CircularUniformPrior (.py). Floats are reals, with infinities (Rbar) for limits. Only scalar arguments. None is an exception, an infinite value or a nan, and for domain2Unit also the zero that results from division by an infinite _urng. |
| `M_Product.v` | Models made of other models: ProductModel.py:99-245, SurfaceSplinesModel.py:108-232, FreeShapeModel.py:98-230 and ConstantModel.py:90-202, in real numbers. Left out: type checks of attributes; FreeShapeModel.TBCbaseDerivative (not in use). |
| `M_Progress.v` | Model of what an iterative fitter shows while it runs (IterativeFitter.py:81-151, 212-222; LevenbergMarquardtFitter.py:198-215, 268-271; RobustShell.py:230-258), and of the names of the parameters of a model that grows and shrinks (Dynamic.py:131-221, BaseModel.py:387-408, Model.py:1074-1095). A line that is printed is represented by the number of the iteration in it; numbers and their format are in M_Tools. |
| `M_RepPrior.v` | Model of the priors of RepeatingModels (RepeatingModel.py:154-186, 445-485) that repeat one and the same model: the first one and its copies. Python lists of priors are objects: h_lists is what is in them, by their address. The repeated model is a single one with mnp parameters (setPrior, basePrior, hasLimits, hasPriors of BaseModel.py:304-356, 369-385, 432-450). Simplified: fitindex of hasLimits is None. |
| `M_Repeat.v` | The repeating model as a function of its parameters: partials and derivative (RepeatingModel.basePartial 373-410, baseDerivative 412-440), and which parameter of the encapsulated model belongs to a parameter (par2model 521-532; priors 475-485, names 491-503). Simplified: one value of x, so that a matrix of partials is one row; the result of the encapsulated model, its partials and its derivative are functions of its parameter list; a name "%s_%d" is the pair of name and number. |
| `M_Robust.v` | RobustShell (RobustShell.py:124-273). |
| `M_Salesman.v` | Model of SalesmanProblem and DistanceCostFunction. |
| `M_Sampler.v` | What a sampler tells about itself: walkers turned into samples (Walker.py:121-159, Sample.py:76-146), the attributes of NestedSampler.py:902-938, the expected number of iterations (NestedSampler.py:700-707), the choice of plots (554-582), the heading and progress of the reports (585-644); the reports and journeys of an engine (Engine.py:299-380) and the step out of ChordEngine.py:287-314. Simplified: real numbers; texts are not formatted; only what is printed and when. |
| `M_Scale.v` | The estimate of the noise scale from the residuals: getScale of the error distributions, and its use by MaxLikelihoodFitter. |
| `M_Shape2d.v` | Model of the construction of Kernel2dModel (Kernel2dModel.py:88-203, 237-250): the shapes, setKernelShape, copy and the units. The numbers of the shapes themselves are in M_Kernel. Fixed parameters are numbers (not models); a shape is an integer or a string. |
| `M_Sigma.v` | The conversion of a noise scale into a standard deviation: toSigma of the error distributions. |
| `M_Sines.v` | Sines with an amplitude or a frequency that varies: PolySineAmpModel.py:75-209, SineSplineModel.py:90-224, SineSplineDriftModel.py:81-248 and PolynomialModel.py:107-154, in real numbers. Parameters are a list, a row of partials a function of the column. Left out: parlist (not used in these models), attributes, copies. |
| `M_SoftMax.v` | SoftMaxModel (SoftMaxModel.py:87-230) and the parts of NeuralNetUtilities it is made of (NeuralNetUtilities.py:48-306), for one data point x (a vector of length ndim), in real numbers. Vectors and matrices are functions of their indices; a reshape of the parameters to ( ndout, ndim ) is the index n * ndim + k. The number of outputs is that of the arrays. Left out: the loss of one axis when ndout or ndim is 1. |
| `M_SplineUnit.v` | Units of the parameters of a SplinesModel: SplinesModel.baseParameterUnit (SplinesModel.py:252-263). A unit is the pair of powers of yUnit and xUnit, as in M_Units. |
| `M_Splines.v` | SplinesModel (SplinesModel.py:142-245) with LinearModel.baseResult (LinearModel.py:91-115), in real numbers. A row of the matrix of partials is a function of the column. Left out: parlist (a selection of columns), fixed parameters, the making of knots out of a range. |
| `M_SplinesDyn.v` | SplinesDynamicModel: grow, shrink, vary, varyAlt and copy (SplinesDynamicModel.py:153-384), in real numbers. The construction of the basis (BasicSplinesModel.makeBaseBasis, makePeriodicBasis) is a parameter: a function of border, knots and number of parameters that fails or yields a basis. Random numbers: rnd i is the i-th number of rng.rand; rint is what rng.randint gives. A loop that may go on for ever has fuel. |
| `M_Start.v` | The starting ensemble: NestedSampler.makeFitlist (NestedSampler.py:512-551) and StartEngine.execute (StartEngine.py:73-157). Simplified: the log-likelihood is a function of the number of components and the list of all parameters, None when it is not finite; the number of tries is the length of the list of random numbers (after the last one the engine raises RuntimeError); the parameters that the model itself gets when it grows are zeros here, they are not used by the engine. The chain has at most one dynamic model, which starts at parameter off of the chain. |
| `M_Steps.v` | StepEngine.execute (StepEngine.py:81-184), GibbsEngine.execute (GibbsEngine.py:80-172) and RandomEngine.execute (RandomEngine.py:80-171) in real numbers, as far as they look for new parameters; how these are stored in the ensemble is in M_Order. Random numbers: rnd k i is the i-th number of the k-th call. Loops that may go on for ever have fuel. ErrorDistribution.updateLogL (462-480) is logLikelihood. Plots and reports are left out. |
| `M_Text.v` | Model of the text of a model: FixedModel._toString (FixedModel.py:455-491), Model._toString and shortName (Model.py:937-957), Brackets._toString (1828-1839), BaseModel.shortName (BaseModel.py:279-285), baseName of PolynomialModel (PolynomialModel.py:161-166), LorentzModel (LorentzModel.py:203) and PowerLawModel (PowerLawModel.py:168), Tools-free. A text is a list of symbols: p_ with its digits, q_ with its digits, the text of a value, or any other character. Regular expressions see the same, as long as no parameter follows directly upon another one and no name contains q_ or a p_ of its own. |
| `M_Tools.v` | The checks on attributes of Tools.py: isInstance (312-324), isList (297-310), setAttribute (116-144), setNoneAttributes (148-176), setListOfAttributes (179-219), setSingleAttributes (221-250); nicenumber (451-470); and Formatter.py: formatter_init (43-74), formatter (84-142), recursive_format (144-183). Floats are real numbers; integers fit in 64 bits. The printed text is a list of tokens: what a format makes of one number, and how wide, is not modelled. |
| `M_Tree.v` | Model of DecisionTreeModel.py. |
| `M_Treebuild.v` | Model of the construction of a DecisionTreeModel of a given depth (DecisionTreeModel.py:112-178, 254-260) and of the text that describes a tree (452-495). kdim is an integer, None or a list of axes; itypes is a list that is not empty (one integer is the same as a list with that integer only); the numbers in split are not negative, so that int() rounds down. The text is a list of its pieces; how a number is written in it is not modelled. ids=False. |
| `M_UnitBox.v` | The box of an engine in unit coordinates, Engine.domain2Unit, unit2Domain, makeIndex, getUnitMinmax, getUnitRange (Engine.py:238-297, 328-332, 383-421); copying walkers from the phantoms, NestedSampler.copyWalkerFromPhantoms and copyWalkerFromDynamicPhantoms (NestedSampler.py:805-850), WalkerList.copy (WalkerList.py:124-147); and the check of a walker, Walker.check (Walker.py:181-204) and Explorer.logLcheck (Explorer.py:243-279). Floats are real numbers. A result None is an exception. Printing before an exception is left out. |
| `M_Units.v` | Model of the units of parameters: baseParameterUnit of the elementary models with one input (ArctanModel.py:163-177, ExpModel.py:181-189, GaussModel.py:184-194, LorentzModel.py:205-217, VoigtModel.py:239-251, PseudoVoigtModel.py:203-215, LogisticModel.py:176-186, KernelModel.py:203-214, PolynomialModel.py:179-189, ChebyshevPolynomialModel.py:196-208, PadeModel.py:278-290, PowerModel.py:154-164, PowerLawModel.py:170-183, HarmonicModel.py:204-214, SineAmpModel.py:169-178, SineModel.py:216-228 and 306-320, SineDriftModel.py:179-193, EtalonModel.py:188-206, EtalonDriftModel.py:190-210), getParameterUnit and getIntegralUnit (BaseModel.py:410-419, Model.py:1098-1130, 1883-1893), CombiModel.py:368-378 and RepeatingModel.py:505-519. A unit is given by its powers of yUnit and of xUnit; the radian counts as 1. |
| `M_User.v` | Models around a function of somebody else: UserModel.py and AstropyModel.py. Objects are kept in a heap as a numeric method stays bound to the object it was made for. One datum with one input and one output; the operation / is not modelled here. |
| `M_Voigt.v` | VoigtModel.py: the profile, its partials and its derivative. One value of x; floats are reals, complex numbers are pairs of reals. scipy.special.wofz is a parameter. |

Source files no model file names (nothing in them is modelled, apart from what is inherited): IterationPlotter.py.

Of the files that are modelled the following is left out, apart from what M_Accept, M_Picture, M_Progress, M_Sampler,
M_Text and M_Tools say: printing and plotting, the iteration plotter, documentation strings, conversion of argument
types, checks on NaN in the input, thread and process pools.

## Findings

Places where the code does not do what its documentation or the property says. Each is a theorem about the model; whether
the program does the same rests on the reading of the source, nothing was run.

* `C02_order_engines_frame_refuted`: C02 fails for the order engines: there is a reachable ensemble (two walkers as made by addWalkers, sorted once) and a valid engine call for walker kw that overwrites the other walker and leaves walker kw as it was.
* `C03_reverse_count_refuted`: ReverseEngine returns a count of 1 although the last trial was rejected and nothing stored.
* `C06_every_phantom_enclosed_refuted`: C06 as stated fails: a request at a level that is not above the previous ones returns the cached box, which need not enclose walkers stored since.
* `C06_first_request_refuted`: The first request at -inf raises AttributeError (paramMin does not exist yet).
* `C09_remaining_mass_used_refuted`: The remaining N walkers together receive at most (N+3)/(2(N+1)) - about half - of the prior mass exp( -k/N ) that is left after k iterations.
* `C11_smallest_removed_refuted`: C11 as documented fails: the sample of smallest weight may survive.
* `C14_shrink_with_kept_refuted`: when a parameter in the deleted slice was kept fixed, one too many of the free parameters drops out of the index: here parameter 3 (now 2) of the next model in the chain.
* `C15_zero_components_refuted`: RepeatingModel with zero components and shared parameters has parameters although it has no component, and the wrong number of base parameters after growing.
* `C18_pipe_into_compound_refuted`: a pipe into a compound model: A | (B + C). Its result is all right, its partial and derivative raise an exception, for all models, inputs and parameters.
* `C18_fixed_behind_pipe_refuted`: a model with a fixed parameter behind a pipe, followed by another one: (A | B) + C, partial raises an exception although result is all right.
* `C19_out_of_range_refuted`: an index out of range is accepted by the constructor, which counts one parameter less; but no list of parameters can be expanded.
* `C19_short_list_refuted`: one value for two free parameters is accepted and used for both.
* `C20_set_prior_spills_refuted`: setPrior on one parameter changes the prior of another one.
* `C20_next_prior_brackets_refuted`: the conversion of a whole list of values raises an exception when the chain has brackets, although every parameter has a prior.
* `C20_has_priors_refuted`: hasPriors says yes although the second model has none ...
* `C20_set_limits_one_side_refuted`: setLimits with only low limits, or only high limits, raises an exception.
* `C22_far_tail_refuted`: At u = 0 a one-sided limit in the far tail is violated: the lowest value is put at center - 40 scale.
* `C23_limits_later_refuted`: Limits set after construction leave the density unnormalised.
* `C23_circular_true_refuted`: circular=True without limits: the mapping is unlimited, the density normalised on [-1/2,1/2].
* `C23_unbound_jeffreys_refuted`: The uniform prior without limits has no density (an exception); the Jeffreys prior without limits returns 0 everywhere instead.
* `C24_unset_refuted`: unsetLimits: the reported limits are gone, the mapping remains limited.
* `C24_scale_refuted`: setAttributes(limits, scale) sets the limits with the old scale: the unit interval no longer covers the limits.
* `C24_circular_refuted`: setLimits on a circular prior uses the circular mapping: new limits are not respected.
* `C24_failure_refuted`: A failing setLimits leaves the refused limits behind.
* `C24_one_side_refuted`: Taking away one limit of a uniform prior by setLimits: the mapping is lost altogether.
* `C25_unused_scale_refuted`: With an accuracy in the problem the scale is not used, yet its partial is not zero.
* `C26_laplace_scale_refuted`: Laplace.partialLogL_alt: the scale component misses a division by the scale.
* `C26_uniform_cyclic_refuted`: A cyclic model: logLdata of the uniform distribution does not wrap the residuals.
* `C26_integer_accuracy_refuted`: An accuracy that is an integer: the norm is counted once, not once per data point.
* `C26_bernoulli_refuted`: Bernoulli.partialLogL_alt has the wrong sign for the data that are not zero.
* `C26_exponential_fixed_power_refuted`: Exponential.partialLogL_alt with the power kept fixed: the scale component is written over that of the parameter.
* `C27_null_refuted`: A model without parameters: the weights do not count in chisq.
* `C27_normalize_refuted`: A kept parameter in a "normalize" row is forgotten: result(p) = p0, keep {1:1}, p0 + p1 = 0 as extra measurement.
* `C28_weights_refuted`: Unequal weights: 0 and 3 with weights 1 and 2 give 12/5 instead of 2, with larger chi-squared.
* `C28_stale_refuted`: First a fit with weights, then one without: the old decomposition is used and 6/5 comes out instead of 3/2.
* `C28_keep_refuted`: First a fit that keeps a parameter, then one that does not: one value is put in both parameters.
* `C29_worse_refuted`: The first accepted step may be worse than the start: chi-squared 9/16 at the start, 25/16 in the result.
* `C29_failed_refuted`: A fit that fails, while a parameter is kept: the rejected parameters are in the model (in the array that was given, when par0 was given).
* `C30_count_refuted`: keep in the call: npfit counts the kept parameters, not the free ones.
* `C30_override_refuted`: keep in the call releases what the constructor was told to keep.
* `C30_later_refuted`: The constructor puts the kept value in the model only once: when the model's parameters are changed afterwards (by hand or by another fitter) the fit keeps that value instead.
* `C30_stdev_refuted`: The standard deviation of a parameter kept in the call is not 0: identity model, keep {1:0}, data 1, 2; whatever inverse is used.
* `C31_tie_refuted`: At temperature 0, with equal function values, the point returned need not be the best one seen.
* `C31_limits_refuted`: All limits finite, the start well inside: the point returned is outside the limits.
* `C32_etalon_drift_slope_refuted`: the slope computed in EtalonDriftModel.baseDerivative has p_2 as a factor too many (apart from the exception it raises
* `C32_pseudovoigt_fixed_refuted`: PseudoVoigtModel with a fixed parameter and free balance has no partials at all
* `C33_squared_missing_refuted`: Three kernels have no resultsq at all.
* `C33_squared_tophat_refuted`: Tophat hands the square to result.
* `C33_sinc_formula_refuted`: The documented formula, p_0 sin( t ) / t with t = ( x - p_1 ) / p_2, is not what is calculated: there is a factor pi in t; the width is the distance between the first zeros divided by 2, not by 2 pi.
* `C34_nan_refuted`: One NaN in the column sends all rows to the same side of a split (the comment in the code promises that only the NaNs go to the smallest part).
* `C34_parlist_refuted`: Asked for the partial of parameter 1 only (parlist = [1]), the tree gives the partials of row 1 only.
* `C35_copy_dynamic_refuted`: The copy of a tree that may not grow or shrink, may.
* `C35_decoded_size_refuted`: A tree made from a code has the wrong number of parameters and components, as soon as there is one branch, and its partials raise an IndexError.
* `C36_shrink_refuted`: Unless the leaf is a left child, or its branch has two leafs, or is the last: shrinking takes away the parameter of another leaf.
* `C37_order_F_refuted`: With order 'F' the rows do not match the pixels unless all dimensions are equal: in an image of 2 by 3 the second row points outside the image.
* `C37_argument_refuted`: The argument order of getIndices has no effect.
* `C38_dependent_refuted`: A vector in the space of the basis leaves nothing to normalise: the code divides 0 by 0.
* `C39_many_refuted`: With more parameters, 25 here, a mirrored step may leave the box: the speed is spread over all parameters at first and mirroring may bring it to one parameter.
* `C39_unit_gradient_refuted`: The gradient handed in is the one to the parameters, the velocity is in the unit box. With ranges of 1 and 10 for the two parameters the component along the gradient in the unit box is not reversed.
* `C39_interpolate_inf_refuted`: A likelihood of minus infinity at the end of the step makes the interpolation NaN.
* `C39_stuck_refuted`: Once the velocity is NaN no step in the same call can succeed.
* `C40_edge_refuted`: A walker with a parameter on an edge: the edge does not count and points outside the box are tried.
* `C41_large_refuted`: Larger residuals (a model running freely beyond one period) are not brought within half a period.
* `C42_scalar_refuted`: One number: the variances are its fourth power, not its square.
* `C42_argument_refuted`: Rows: the array of the caller is overwritten.
* `C42_copy_refuted`: Rows: making a copy changes the distances of the original.
* `C42_copy_scalar_refuted`: One number: making a copy changes the variances of the original, and of the copy, to the sixteenth power.
* `C43_sinc_refuted`: Sinc gives negative weights.
* `C43_other_kernel_refuted`: Another kernel given to fit() keeps the domain of the first kernel: Huber after Uniform leaves deviants of three times the scale at full weight.
* `C43_callable_refuted`: A function for a kernel, given without a domain, raises an exception.
* `C43_no_iteration_refuted`: With maxIter=0 the fit raises an exception.
* `C43_not_converged_refuted`: The end of the iterations is not reported as a failure: with chisq jumping up and down, the fit after maxIter iterations is returned.
* `C44_both_refuted`: A parameter both in addCombi and in mulCombi: its partial is too large.
* `C44_copy_refuted`: The copy of a combination of a compound model is another model: only its first part is repeated, with the operation inside the compound, or it cannot be made at all.
* `C45_noise_copy_refuted`: The copy of a NoiseScale always is fixed and without prior: only the value survives.
* `C45_hyper_limits_refuted`: A HyperParameter with limits but no prior stays fixed.
* `C45_prior_limits_refuted`: A prior which has limits loses them when it is handed to a hyper-parameter without repeating them; a noise scale so made is not fitted, because its prior is not bound.
* `C45_power_refuted`: The power of the Exponential distribution is never fitted, not even when limits are given.
* `C45_keep_refuted`: ErrorDistribution.keepFixed does not keep a hyper-parameter out of the fit.
* `C45_fixed_argument_refuted`: The argument fixed of ScaledErrorDistribution with any index raises: the hyper-parameters are not there yet when it is used.
* `C45_errdis_copy_refuted`: Copying an error distribution puts the scale to 1: that of the copy and that of the original.
* `C46_dynamic_ids_unique_refuted`: C46 fails for dynamic models: the first phantom of every new number of parameters gives its walker the id 0.
* `C47_final_information_refuted`: When the remaining walkers are added, the last limit is used for all of them: the information reported falls short by the weighted height of the final walkers above it.
* `C48_at_most_maxIterations_refuted`: One iteration more than maxIterations is done.
* `C49_tophat_refuted`: A Tophat (0 convolutions) circle of radius 1: at distance 0.6 the value of result is 0, but the model gives the full amplitude.
* `C50_vary_split_refuted`: A float branch that gets a boolean or categorial dimension keeps its split: the tree is not valid.
* `C50_vary_mask_refuted`: A mask of one bit becomes 0 when that bit is changed: the tree is not valid.
* `C51_good_refused_refuted`: Corner 0 of a start (0,1) with steps 1 is (1,1): a good simplex is refused.
* `C51_flat_accepted_refuted`: All corners in the same place: accepted.
* `C51_one_parameter_refuted`: One parameter: never accepted.
* `C51_upper_refuted`: A start above the upper limit where there is no lower limit: no finite start is left.
* `C51_constant_refuted`: A function which is the same everywhere: the search never ends, whatever the maximum number of iterations.
* `C52_derivative_refuted`: Any other order, with more than two knots: at one beyond the last internal knot the slope of the last spline is the order, the derivative gives 3.
* `C52_histogram_refuted`: Order 0, a histogram: the slope is 0 inside the bins, the derivative is not.
* `C52_lines_refuted`: Order 1, connected lines: the slope of the second line is 1, the derivative is 3.
* `C53_random_range_refuted`: When a parameter is not fitted the next ones are drawn from the range of another one: here parameter 1 (phantoms between 0.5 and 0.6) is put at 0.
* `C54_copy_refuted`: The copy of a periodic splines model is not periodic: border is not handed over, so the next grow, shrink or vary makes the basis of splines with open ends for it.
* `C54_endless_refuted`: When no gap between two knots is more than twice the minimum distance, grow does not return, whatever is drawn.
* `C54_false_refuted`: When the basis can not be made, grow returns False, but there is one knot more, and the model says it has one parameter more than there are.
* `C54_last_refuted`: vary with the location of the last knot raises an IndexError; with the number of knots it returns False, as for the first knot.
* `C54_priors_refuted`: shrink of a model without priors raises an exception, and one knot is gone.
* `C54_chain_refuted`: In a chain, shrink asks the splines model, and not the head of the chain, for the prior of a parameter with an index that counts from the head. As the last model of a chain, after models with at least as many parameters as it has, shrink raises an IndexError, also when every parameter has a prior.
* `C55_unit_refuted`: The unit of a parameter has the powers of the units of x and y interchanged: it is wrong for every parameter that belongs to a term in which the powers of x and y differ.
* `C56_axis_refuted`: semimajoraxis takes its numbers from other places: the eccentricity for the amplitude, the amplitude for the period, the period for the eccentricity. A circular orbit gets 0, any period above 1 raises ValueError.
* `C56_msini_refuted`: And so does getMsini: in M sin i = 4.91e-3 M*^(2/3) K P^(1/3) sqrt( 1 - e^2 ) the eccentricity is taken for K, the amplitude for P and the period for e. It is right for no planet with a circular orbit, and raises ValueError for any period above 1.
* `C56_unit_refuted`: RadialVelocityModel: period in the unit of the velocity.
* `C56_eccentricity_unit_refuted`: RadialVelocityModel: the eccentricity is said to be in radians per unit of x. Converted accordingly to a large enough unit of x any eccentricity becomes larger than 1: it is no orbit any more.
* `C57_unit_refuted`: But the unit of the period is 1 over that of x: converted accordingly, the result is another.
* `C58_parlist_refuted`: The method basePartial of SoftMaxModel takes a list of the parameters that are wanted and does not look at it: when parameters of the model are kept fixed the partial still has a column for every parameter, so that column 0 is not that of the first free parameter.
* `C58_unit_refuted`: The offsets have no unit, except that baseParameterUnit compares k > ndim * ndout where k >= ndim * ndout is meant: the first offset has the unit of the parameters of the first input, for every number of inputs and outputs.
* `C59_likelihood_refuted`: With weights and an array of accuracies the log-likelihood counts the accuracy of every data point once instead of weight times: two data points of weight 2 and accuracy 2 have another log-likelihood when the accuracy is given as one number.
* `C59_compound_refuted`: The ranges are right for the model at the head of a chain only: getLogZ looks at model.priors, which are the priors of the first model. For the sum of two models with one parameter each, with ranges 1 and 10, it takes the range 1 twice.
* `C59_noise_refuted`: Let g( u ) be the logZ for a fixed noise scale exp( u ). It has its maximum where the variance is chisq / dof, with second derivative -2 dof. So in the Gaussian approximation of the posterior, with a uniform prior for the logarithm of the noise scale between the noise limits, logZ = g( maximum ) + log( sqrt( 2 pi / ( 2 dof ) ) ) - log( scalerange ), where scalerange is log( high / low ). The value of getLogZ with noiseLimits is log( dof ) - scalerange more than that: it multiplies pi with dof instead of dividing, and subtracts scalerange as well as its logarithm.
* `C60_keep_refuted`: When any hyper parameter is fixed - as the noise scale is by default - keep does not work: the loop runs over all parameters but looks in the list of fitted ones, and ends with an IndexError, unless the last hyper parameter is kept by its positive number.
* `C60_fixed_refuted`: In a dynamic start everything that is not fitted is set to 0: the values of kept parameters and of fixed hyper parameters, the noise scale for one, are lost.
* `C60_retry_refuted`: When the first try of a dynamic model fails, the next growth of the model starts from the wrong place in the list of indices. Two parameters, of which the second is kept, before the dynamic model: the first try adds nothing, its likelihood is not finite; the second adds a component. The kept parameter ends up among the fitted ones: it gets a value from the prior, and the one that was fitted is left at 0.
* `C62_derivative_last_refuted`: At the last knot the derivative is 0, whatever the parameters (eps as it is made): diff goes on with splines that do not know of the last knot.
* `C62_single_refuted`: With one parameter only, order 0 and two knots, the column of partials has become a row: one result for all points, and no derivative.
* `C62_copy_refuted`: A copy does not keep eps.
* `C63_poly_name_refuted`: The name of the model says y^(np+k) for the terms with the sine, from the third on; it is y^k.
* `C63_spline_derivative_refuted`: There is never a derivative: the splines are handed all parameters, which is twice as many as they have; numpy raises an error.
* `C63_drift_derivative_refuted`: There is never a derivative: polynomial and splines are handed all parameters; numpy raises an error.
* `C63_drift_unit_refuted`: The unit of the amplitude of the cosine, parameter degree + 1, has a power of xUnit, as the parameters of the drift are forgotten; when the unit of x is changed (the parameters of the drift changed along) its partial stays the same.
* `C64_product_unit_refuted`: When a model in the product is a chain, the unit is that of a parameter of another model: npbase counts the first model only.
* `C64_product_title_refuted`: There are letters for six axes; with more models the product has results, but asking for its name raises an IndexError.
* `C64_surface_name_refuted`: The names of the parameters have the indices as if the first axis runs fastest: they are interchanged.
* `C64_surface_unit_refuted`: So are the units: measured in a unit twice as small along the first axis (knots and points 2 times as large), the second column does not change, while its unit says that it doubles.
* `C64_surface_cap_refuted`: The power in the unit is at most 3 whatever the order: for lines, (x - knot) has the unit of a cube.
* `C64_pixels_center_refuted`: but pixel k runs from k - 1/2 - center on: for the default, center 1/2, from k - 1 to k and not, as the documentation of center has it, from k to k + 1. On the last pixel of the domain the result is 0 whatever the parameters, and on the pixels before it is the parameter of the next pixel.
* `C64_constant_copy_refuted`: A copy shares its fixed model with the original: setting the values of the copy changes the result of the original.
* `C64_constant_fixed_refuted`: Giving a fixed model to a constant that has a table: the result still is the table, but the derivative is that of the fixed model.
* `C65_hessian_refuted`: so it is not the Hessian of the function that is minimised.
* `C65_hessian_keep_refuted`: With kept parameters the Hessian is computed from the fitted parameters as if they were all: in p0 p1 x, with p0 kept at 2, the partial to p1 is 2x, but the fitted p1 = 5 takes the place of p0.
* `C65_curve_keep_refuted`: keep is documented as "only valid for *this* fit", but a fit leaves it behind: in a next fit without keep the parameters are kept too, whatever curve_fit does.
* `C65_scipy_par0_refuted`: ScipyFitter takes no notice of par0.
* `C65_scipy_method_refuted`: Its method is documented to be optional, but without one the constructor raises a TypeError.
* `C65_scipy_limits_refuted`: Limits that are given give way to those of the priors in the model.
* `C65_scipy_bounds_refuted`: Limits reach scipy as a pair of arrays, where it takes a pair for each parameter: for two parameters the first one is sought between the two lower limits, the second between the two upper ones; with another number of parameters it is an error.
* `C65_cg_gradient_refuted`: ConjugateGradientFitter drops the option to work without gradient.
* `C65_gauss_hessian_refuted`: The Hessian of a Gaussian likelihood, for a model that is linear in its parameters, without accuracies. What is handed out has the wrong sign for the function that is minimised (minus the log likelihood, whose second derivative is positive), and the weights are squared in it.
* `C65_gauss_hessian_scale_refuted`: When the scale is to be fitted too (the index that follows those of the parameters) it raises an IndexError: the columns are taken from the end of the index, in stead of up to it.
* `C65_curve_bounds_refuted`: With any parameter kept fixed, a model with limits in its priors cannot be fitted by CurveFitter: ValueError.
* `C66_float_refuted`: A float is documented to be truncated; below 100 it raises a TypeError,
* `C66_float_large_refuted`: from 100 on it is not truncated: the answer for k + 1/2 is more than 1 above that for k.
* `C66_single_refuted`: A list of one number, and an array of one number below 100 (the data of a Poisson distribution in one point) raise a TypeError.
* `C66_negative_refuted`: Negative numbers are taken from the other end of the table: no exception.
* `C67_chain_refuted`: Two models, the first without priors: the limits of the second are ignored.
* `C67_missing_refuted`: Two models, the second without priors, all parameters fitted: IndexError.
* `C67_again_refuted`: The limits are not looked at again after the second fit: limits p0 >= 0 and p1 <= 3/2, the result is 0, 2.
* `C67_two_refuted`: Two parameters beyond their limits are both put there, also when the best within the limits has only one at its limit: limits p0 >= 0 and p1 >= 0; the result is 0, 0; the best is 0, 1/2.
* `C67_keep_refuted`: A parameter kept in the call is moved to the limit when its value is beyond it.
* `C67_override_refuted`: A parameter fixed at construction and kept at another value in the call: the call's value is overruled when some parameter goes beyond its limits (only then).
* `C67_shape_refuted`: With kept parameters, all parameters are returned when none is beyond a limit, and only the fitted ones when one is.
* `C68_first_refuted`: Before average has been called: AttributeError.
* `C68_stale_refuted`: After average, or another call, with as many points elsewhere: the errors of those points.
* `C69_cauchy_sigma_refuted`: toSigma of the Cauchy distribution is the scale: no number is its standard deviation.
* `C69_bernoulli_refuted`: The class documents a likelihood x for a True and 1 - x for a False datum, x the value of the model (BernoulliErrorDistribution.py:37-40); it is the other way around: a datum that equals 0 (False) has likelihood x.
* `C69_cyclic_refuted`: In a cyclic problem residuals are folded into one period, the density is not: over one period of data the likelihood adds up to less than 1, for Laplace to 1 - exp( - q / 2s ).
* `C70_normalisation_refuted`: The likelihood of one data point, a pair (x,y), is not a probability density: integrated over x and y it is the square root of 2 pi. logLdata has one LOG2PI where two dimensions ask for two (Gauss2dErrorDistribution.py:170; 142, 144 and 146 too).
* `C70_alternative_refuted`: With weights the alternative refers to a name that is not defined (146).
* `C71_exponential_refuted`: The estimate of an exponential distribution is not the scale of maximum likelihood, unless the power is 1: the factor power is missing in getScale.
* `C71_uniform_refuted`: At the estimate itself the likelihood of a uniform distribution is 0: a residual at the edge is taken to be outside.
* `C71_cauchy_refuted`: For a Cauchy distribution the equation that is solved is not the one of maximum likelihood. With one residual, of 1, the scale of maximum likelihood is 1; getScale returns a number, but no zero of its function is 1.
* `C71_cauchy_range_refuted`: When all residuals are less than 0.001, or all larger than 300, getScale of the Cauchy distribution raises a ValueError.
* `C71_gauss_accuracy_refuted`: With accuracies the estimate of the Gaussian distribution ignores them: another scale has a higher likelihood.
* `C71_default_refuted`: The exponential distribution needs the parameters: without them it raises a TypeError.
* `C71_autoscale_laplace_refuted`: For a Laplace distribution the scale is replaced by the standard deviation, which does not give the maximum;
* `C71_autoscale_uniform_refuted`: for a uniform distribution the result is minus infinity, always.
* `C72_difference_refuted`: The derivative of the difference of two models with more inputs and more outputs raises a TypeError: lists cannot be subtracted.
* `C72_product_refuted`: The derivative of the product (or the quotient) of two models with one output and more inputs raises a ValueError: a matrix with a row per datum is multiplied by a vector with an item per datum. It happens to be right for one datum;
* `C72_product_wrong_refuted`: and when there are as many data as inputs the derivative is silently wrong: at the first of two data the derivative to the second input takes the result at the second datum.
* `C72_partials_refuted`: The partials of a product or a quotient of models with more outputs raise an AttributeError: a list has no transpose.
* `C72_pipe_next_refuted`: In partial() and derivative() of G | H + M the result of H is first asked at the inputs of G. When H raises there, as it needs another number of inputs, so do they; although the result of the chain is there.
* `C72_numeric_refuted`: With more outputs numerical partials are not possible, and numerical derivatives only with one input: a matrix does not fit in a column.
* `C73_weights_refuted`: Weights in a list, or an accuracy that is one python float, are not accepted: AttributeError.
* `C73_scale_refuted`: Without weights it is sqrt( ndout ) too large, as the number of data is taken for the number of residuals: another scale has a higher likelihood.
* `C74_ndata_refuted`: Another number of data after ndata was used, is not seen: ndata keeps its value.
* `C74_poke_refuted`: Neither is a weight changed in place: sumweight stays as it was.
* `C74_accuracy_refuted`: An accuracy assigned to the attribute is not seen by the variance, which is what the Gauss distribution uses.
* `C74_cyclic_refuted`: With another model in the problem the correction stays the one for the first: none at all, or a failure; a copy of the problem has it right again.
* `C75_subtract_refuted`: In place, as with model1 -= model2 or subtractModel(), the partials of the second model have the wrong sign: it is changed twice.
* `C75_multiply_refuted`: In place with * or / there are no partials at all: AttributeError, as there is no first factor when the method is called.
* `C75_first_refuted`: With the numeric one first, and something appended to it in place that has parameters, there are none either: IndexError.
* `C75_user_fixed_refuted`: With fixed parameters it takes partials of some data, not of some parameters: as many rows as there are free parameters, each with all parameters; or IndexError.
* `C75_astropy_derivative_refuted`: A model of astropy has no derivative.
* `C76_linear_refuted`: A linear model with something non-linear added to it is fitted as a linear one.
* `C76_runtime_refuted`: When there are more parameters than data the exception of the fitter is not caught.
* `C76_weights_refuted`: Weights in the problem do not count when a fitter is used.
* `C76_fitter_refuted`: With a fitter as arbiter it is not the model of the problem, but that of the fitter that counts; whatever the model is, all models with the same number of parameters have the same value;
* `C76_fitter_size_refuted`: models with another number of parameters than that of the fitter have the lowest value there is, e.g. all but one of the sizes of a dynamic model.
* `C76_nested_refuted`: but its value is the 10log of the evidence, where all others have the natural logarithm.
* `C76_copy_refuted`: A copy has lost the keywords for the arbiter: its values differ.
* `C77_fixed_refuted`: The list of the parameters that are not fixed is ignored: the columns are those of the first parameters. One parameter fixed, the first one: the first column is the partial to that fixed parameter.
* `C77_last_refuted`: Whichever parameter is fixed, there is no partial (IndexError) at a match that the last team plays at home.
* `C77_compound_refuted`: In a compound model the parameters of the models that follow have priors of their own; asked from the football model at the head of the chain, one of its own priors comes back.
* `C79_flat_refuted`: A growth prior that is uniform over the sizes min ... max does not give the sizes the same weight: the equal weights are not kept by births and deaths, whenever there is more than one size.
* `C79_start_refuted`: A repeating or harmonic model with a highest size that is offered at its lowest size never starts with it (no random number but 0 does that), although deaths do bring it there.
* `C79_copy_refuted`: An harmonic model with lowest order 0 that has lost its last component cannot be copied, while every engine starts with a copy of the walker.
* `C79_static_refuted`: A repeating model that is not dynamic cannot be copied at all: it has no growth prior.
* `C80_empty_selection_refuted`: Without components the list is ignored: all (zero) partials are returned.
* `C80_names_refuted`: Without shared parameters no name can be asked for: TypeError.
* `C80_compound_refuted`: A compound model (without brackets) inside cannot be evaluated: only the parameters of its first model are handed over.
* `C81_stdevHypar_refuted`: SampleList.stdevHypar asks for itself, after getHypars has set stdevHypars: it never answers.
* `C81_stdevScale_refuted`: SampleList.stdevScale, and stdevScale and stdevHypars of NestedSampler, give an AttributeError when the hyper parameters have not been asked for before.
* `C81_stale_refuted`: The standard deviations are kept when a sample is added, while the (non circular) parameters are calculated again.
* `C82_documented_refuted`: The example in the documentation of LoopEngine, a square of 4 by 4 cities with the tour in the order of the numbers: the legs 5-6 and 13-14 cross, and neither of them finds the other.
* `C82_upright_refuted`: An upright first leg that is crossed: the axes are reversed for the second leg only, and the crossing is not found.
* `C82_downhill_refuted`: Legs that do not meet are taken for crossing, and the tour that is proposed is longer: the engine does step downhill.
* `C82_near_idle_refuted`: When the nearest neighbour is visited just before the city already, the proposal is the tour itself; it is stored as a success.
* `C82_table_refuted`: With spherical or tabulated distances it is the distance between the cities 0 and 1 that is taken for all: the next city in the tour, whichever it is, is taken for the nearest, and nothing is ever proposed for a city seen for the first time.
* `C83_second_without_refuted`: A second distribution without hyper-parameters (Poisson, Bernoulli) cannot be mixed in: the assignment [p2[-0:] = allpars[-1:-1]] raises for every fraction, whatever the first one is.
* `C83_power_second_refuted`: With the exponential power distribution as second part, index -3 is its scale, but what is returned is the partial to the scale of the first part: not zero where the log-likelihood is stationary.
* `C84_periodic_few_refuted`: a periodic model with fewer than order + 2 knots raises IndexError when it is constructed
* `C84_easy_refuted`: the easy borders (border = 2) cannot be constructed: for an even order it raises ValueError, for an odd order the matrix of the normalisation has equal rows
* `C85_new_distribution_refuted`: A distribution that is set on an existing sampler is used for the walkers and by the explorer, but the engines go on with the previous one: they compare likelihoods of different distributions.
* `C85_limits_refuted`: limits that are given along with a distribution are ignored: its hyper-parameters remain as they were
* `C85_solver_distribution_refuted`: a NestedSolver cannot be given a distribution: it raises TypeError, also for "distance" and for an object
* `C85_solver_dynamic_refuted`: an ordering problem that is dynamic has birth and death among its engines, which NestedSolver does not know
* `C85_evidence_refuted`: "evidence" is in the list of names but it raises TypeError: its constructor does not take the accuracy
* `C85_problem_data_refuted`: according to the documentation data that come along with a problem are not used; they replace those of the problem
* `C85_boost_refuted`: a fitter that is given as bestBoost is not used, the default one is
* `C86_no_hyper_refuted`: Without hyper-parameters (Poisson) the fitter does not start at the walker but at an empty list of parameters.
* `C86_more_hyper_refuted`: With two or more hyper-parameters (exponential) the boosted list is too short: only one is put back.
* `C86_keep_refuted`: All parameters of the model are fitted, without limits: a parameter that is kept fixed (not in fitIndex) gets the value that the fitter finds, and nothing keeps the values within the limits of the priors.
* `C86_empty_refuted`: When the list of phantoms is empty, as it is after it has been cropped below a likelihood that none of them reaches, setting a walker raises IndexError.
* `C87_integer_refuted`: Integers stay integers: aveknt( [0,1], 2 ) is [0], not [0.5].
* `C87_order_zero_refuted`: Order 0 raises for every list of sites, although "int, >= 0" is documented.
* `C87_repeated_refuted`: Sites that are repeated k times at the end are not detected: the loop stops one too early. aptknt( [0,1,1], 1 ) is accepted; at the start, [0,0,1], it raises.
* `C87_last_row_refuted`: aptknt promises knots for interpolation at the sites. spcol does not treat the last knot: all splines are 0 there, so the last row of the matrix of any (different) sites with their own knots is zero: the matrix is singular.
* `C88_unset_refuted`: Without engines to run, or without parameters, the explorer raises: it uses its variable update, which was never set.
* `C88_slow_refuted`: So a list of engines that are all slow raises at every iteration at which none of them is due.
* `C88_calls_refuted`: but the number of calls is not: instead of calls, the steps are added. One call with 4 rejected steps and a success counts as 5 calls.
* `C88_errors_refuted`: After one error in a thread, exploring with threads raises ever after, also without errors: the list of errors of the module is never emptied.
* `C88_stuck_refuted`: Engines that move walkers in place, like those of order problems, add nothing: the update never ends.
* `C88_few_refuted`: Too few walkers for the step: ensemble * step < 100, as 24 walkers with the standard step 4; also a step of 0 is allowed. The iteration raises.
* `C89_parlist_refuted`: With a parlist the columns are not those of the parameters: column i is that of the i-th of the list, with the step of parameter i, and the other columns are 0. For parlist [1] of two parameters:
* `C89_test_number_refuted`: It is not "the number of large deviations": that number is multiplied by the number of points, up to 10. One wrong item in two points gives 2.
* `C89_limits_order_refuted`: Indices not in rising order: those after the first one of a next model are not looked at.
* `C89_limits_shared_refuted`: One prior for more parameters: getPrior takes it for all, hasLimits only for the first; and so the parameter has limits, when it is asked for, and has none, when all are asked for.
* `C89_limits_list_refuted`: A list of indices never gets to the answer Yes: it raises.
* `C89_limits_hyper_refuted`: The index -1 of a hyperparameter is looked up among the priors of the parameters.
* `C90_endless_refuted`: When no phantom is above the limit it goes on for ever, whatever is drawn.
* `C90_nuisance_refuted`: Of a problem with nuisance parameters, which also stand in the parameter list, no walker passes;
* `C90_nomodel_refuted`: Of a problem without a model, like that of a salesman, no walker passes either.
* `C90_sign_refuted`: Only the first of the hyper-parameters is looked at for its sign.
* `C91_bools_refuted`: A bool is accepted as a float and as an int, a list of bools is not;
* `C91_float32_refuted`: and a numpy.float32 is no float, neither alone nor in a list, unless there is another number in the list.
* `C91_linelength_refuted`: The bracket and the spaces before a line are not counted in the linelength: with two items of 5 characters and a linelength of 10 the second item ends at position 11, the closing bracket at 12.
* `C92_nuisance_refuted`: With nuisance parameters the hypars of a walker start with these: they are not those of its sample.
* `C92_nomodel_refuted`: A problem without a model: its walkers have no parameters or hypars at all, although their samples do.
* `C92_minimum_refuted`: A maximum below the minimum (which is 100 by default) is not obeyed,
* `C92_maximum_refuted`: and at the maximum there is one iteration more.
* `C92_attribute_refuted`: Any other name, also a misspelled one, is answered with None: there is no AttributeError.
* `C92_heading_refuted`: but with one of two fitted the other is called unknown: only the power (index -1) is fitted, the scale (index -2) is known. The same for the names above the columns: the last column is the power.
* `C92_rate_refuted`: When there were no trials in between, it is a division by zero.
* `C93_polynomial_refuted`: A polynomial of degree 10 behind a model with two parameters: the last parameter is p_12, but p_30 is printed.
* `C93_square_refuted`: Any other character that follows a fixed parameter is lost: the square in the text of a Lorentz model with a fixed width.
* `C93_bracket_refuted`: the closing bracket in that of a power law with a fixed shift
* `C93_short_refuted`: A compound model with brackets in it has no short name (AttributeError), although it has a text.
* `C94_ylim_refuted`: plotSampleList with ylim never makes a picture: ylo and yhi have no value (UnboundLocalError
* `C94_fit_residual_refuted`: When both a fit and a model are given, the residuals are not those of the curve that is drawn
* `C94_movie_backend_refuted`: It does not always come back: the loop is left by a return
* `C94_movie_data_refuted`: Making a movie with the problem changes the data of the problem: every time 9 is taken off.
* `C94_movie_second_refuted`: The second movie of a problem shows data and model 9 apart.
* `C95_brackets_refuted`: Inside of brackets it is not seen: neither grows
* `C95_static_refuted`: nor behind a RepeatingModel (or splines, or a tree) that is not dynamic; in the other order it is
* `C95_modifiable_refuted`: A model before it and it never varies; EvidenceProblem does not even accept it
* `C95_one_refuted`: With brackets there can be two
* `C96_pseudovoigt_refuted`: but PseudoVoigtModel says that the balance is in xUnit.
* `C96_power_refuted`: but PowerModel says it is in yUnit, which is right for exponent 0 only. The code knows: "Not strictly OK" (PowerModel.py:157), its documentation (41-42) divides x by 1.0 in the units of x.
* `C96_powerlaw_refuted`: PowerLawModel has the amplitude in yUnit too: right when the power is 0 only. Its documentation (48-49) divides x by 1.0 in the units of x; in those units it is right.
* `C96_chebyshev_refuted`: A Chebyshev polynomial is not one in another unit of x: its x is a pure number, while xUnit can be set all the same. The documentation (ChebyshevPolynomialModel.py:200) says that xUnit must be dimensionless.
* `C96_fixed_refuted`: A GaussModel with a fixed amplitude gives the centre the unit of y.
* `C96_pade_refuted`: A PadeModel fixes parameter num+1 at 1: all the units of its denominator are one power of x off.
* `C96_chain_refuted`: Set on the compound model, as on any other model, only those of the first model in the chain get the units.
* `C96_combi_refuted`: A CombiModel does not hand its units to its inner model: whatever they are, the parameters have those of the inner model.
* `C97_reshape_refuted`: The example in the documentation of the class, a circular model that is set to another shape, ends in a ValueError, as the number of parameters in the chain stays the same. It leaves a model that says it has the new kernel, the new shape and the new number of parameters, but has the old parameters, names and results.
* `C97_angle_refuted`: The documentation says: counterclockwise from the x-axis. At 45 degrees that is the line of the other width.
* `C97_amplitude_refuted`: The documentation says: the amplitude is set to 1.
* `C98_once_refuted`: An iteration is not always printed once only: the last one of a Levenberg-Marquardt fit is printed twice.
* `C98_plot_refuted`: doPlot never makes a plot: when one is due it ends in an AttributeError.
* `C99_grow_refuted`: but a birth numbers all of them again: the names the user gave to the parameters that are still there are lost.
* `C100_list_refuted`: The accuracy may be given as array_like, says the documentation, but a list of them, all positive, is a TypeError.
* `C100_negative_refuted`: Weights are not checked for their sign: with negative ones the fit goes on, with a negative weight for the datum.
* `C101_multiple_refuted`: With two bases only the one that is first in the alphabet is looked at: PolynomialDynamicModel( PolynomialModel, Dynamic ) is no subclass of PolynomialModel, nor of Model.
* `C102_append_refuted`: What has been stated of the appended model is lost: a gauss with its amplitude stated to be linear, appended to another one.
* `C102_negative_refuted`: setMixedModel( [-1] ) does not make the last parameter a linear one.
* `C103_pseudovoigt_width_refuted`: The width of a PseudoVoigt is no half-width: at one width from the centre it is more than half the top.
* `C103_logistic_formula_refuted`: LogisticModel does not compute the formula of its documentation.
* `C103_harmonic_init_refuted`: The documentation of HarmonicModel says that its parameters are initially 1.0; they are 0.
* `C104_default_refuted`: The default of kdim, or the documented None, can not be used for any depth but 0
* `C104_none_refuted`: split = None is allowed according to the documentation. For an axis of floats it gives a branch without split or mask, of which the check says that it is wrong, and which has no result; for other axes it is a TypeError.
* `C104_argument_refuted`: The list of splits of the caller is made longer by the constructor
* `C105_fixed_refuted`: The documentation says that it is the solution of E = M + e * sin( E ). At M = pi/2 and an eccentricity of a half it is off by more than 0.8
* `C106_padding_refuted`: The documentation says that for dynamic models the parameters are zero-padded; but samples with different numbers of parameters give a ValueError, for all parameters and for any of them
* `C106_normalized_refuted`: The flag should be true when the weights sum to 1; but after weeding it is still there, while the weights sum to less than 1
* `C106_modus_refuted`: so that the modus is not the sample of the largest weight any more when a heavier one is added,
* `C106_median_refuted`: and the median does not exist any more when the list is weeded
* `C106_dynamic_refuted`: The documentation says that it is a ValueError for dynamic models; but a sample with 1 parameter after one with 2 is added to both: an answer that mixes different parameters
* `C107_list_evidence_refuted`: The list of samples has an attribute logZ, the natural log of the evidence, and an attribute evidence. After a run both are still 0.
* `C107_again_refuted`: but the samples of the first run stay in the list: with their weights, that sum to 1, they are normalized together with those of the second run, that sum to the evidence Z. So the first run counts for 1/(1+Z) of all and the second for Z/(1+Z): next to nothing for a small Z.
* `C107_linear_refuted`: The number of the iteration is not set back. When it is past the minimum, and the tolerance is not above 0, the second run stops before its first iteration: only the first walkers are in the evidence
* `C108_tied_refuted`: With ties that is not so. In the example of the documentation, three models of 3 parameters of which the second and the third are tied, the last parameter is the first one of the third copy, but its prior is that of the second one
* `C108_chain_refuted`: With a CombiModel at the head of a chain the priors of the models after it are never found
* `C109_error_refuted`: too high a number is not the IndexError that is documented
* `C109_copy_refuted`: what is set in the copy is set in the original as well: they have the same repeated model, so that what any of them answers does not depend on which one was set
* `C109_limits_refuted`: when the priors are set after that, as the method setPrior is for, hasLimits stays False whatever the priors, and so getEvidence (BaseFitter.py:934) does not see the limits
* `C110_view_refuted`: a sample does not have parameters of its own: who writes in them changes the walker, as long as that is the same
* `C111_ncomp_refuted`: When ncomp is assigned, it is what it is for ever: the model grows without end, past its highest degree or order.
* `C111_splines_refuted`: The limits that are assigned to a model of splines are not looked at: it grows and shrinks as before.
* `C111_copy_refuted`: A copy has forgotten what was assigned: it reads the degree, order or knots; only a repeating model keeps the limits.
* `C111_repeating_refuted`: Assigning ncomp to a repeating model does not change its parameters: there are too many or too few from then on.
* `C112_shared_refuted`: But they are the same numbers in memory: assigning to a parameter of the isolated model assigns to the parameter of the compound.
* `C112_inside_refuted`: Asked of a model inside the compound, it has the first parameters of the compound, whoever they belong to.
* `C112_fails_refuted`: When the model cannot be copied, the compound ends with it from then on: what came behind it is lost.
* `C112_copy_fails_refuted`: A copy that fails, as the second model of the compound cannot be copied, leaves the compound with these two models only.
* `C113_forgotten_refuted`: The copy of a BracketModel has forgotten the parameters that were assigned to it: it has those of the model inside.
* `C113_short_refuted`: The copy of a compound that begins with a BracketModel has too few parameters: those of the brackets only.
* `C113_count_refuted`: Adding a third model to it, with the operator, gives a compound that takes fewer parameters than its models need.

Seen while reading the source; not modelled and nothing proved about them:

* SampleList.stdevHypar returns itself (endless recursion); NestedSampler sets `samples.LogZ`.
* ErrorDistribution.setPriors calls a method HyperParameter does not have.
* ShuffleEngine.execute lacks keyword arguments the explorer passes.
* QRFitter with two normalize rows; the slope of circle and ellipse kernel models in their centre (0/0).
* LevenbergMarquardtFitter takes the design at the parameters of the model, not at the initial ones.
* Model.parameters is set without a copy, so arrays returned earlier can change in a later fit.
* MonteCarlo.__str__ formats a function with %d (TypeError); its constructor reseeds numpy's global generator.

## Seeded errors

seeded/LOG.jsonl holds one line for each wrong program that was tried in a scratch copy. How far it can be trusted:

* A theorem is listed under theorems_failed when its proof, or a lemma it depends on, no longer compiles. That the statement itself has
  become false was not established in general: a proof can break on an edit that leaves the statement true. Two edits of append in M_Bracket
  were such cases; they are entered as survivors, and C113_members was added for them.
* Conversely the lines with no failing theorem are real survivors. Where theorems_tightened names a theorem, that theorem was added or
  strengthened afterwards; where it is empty the edit is not seen by any property.
* Mutants for which the runner could not finish (an error outside a proof, a time-out) are left out of the log. Of one batch of 98 the
  last 42 (in M_Elem, M_Prior, M_Fixed, M_Attr and five in M_Kernel) were not evaluated: the scratch copy was damaged, and those results were
  thrown away.

## Axioms per theorem

* none (closed under the global context):
  C01_proposals_permute, C01_reverse_first, C01_runs_keep_tours, C01_stored_above_limit, C02_append_frame, C02_continuous_engines_frame, C02_order_engines_frame_partial, C02_order_engines_frame_refuted, C03_count_means_move, C03_execute_first_success, C03_execute_reports_a_try, C03_reverse_count_partial, C03_reverse_count_refuted, C05_counter, C05_crop_exact, C05_ordered_and_complete, C06_box_exact, C06_box_partial, C06_dynamic_box_exact, C06_every_phantom_enclosed_refuted, C06_first_request_refuted, C101_multiple_refuted, C101_noclass, C101_single, C101_sound, C102_append, C102_append_refuted, C102_copy, C102_last, C102_linear_head, C102_members, C102_negative, C102_negative_refuted, C102_reset, C102_split, C104_leaf_line, C104_lines, C104_text_unique, C106_dynamic_error, C106_maximum, C108_first_copy, C108_names, C108_names_all, C108_names_unique, C108_position, C108_untied, C109_copy, C109_copy_refuted, C109_error_refuted, C109_limits, C109_limits_refuted, C109_set, C109_succeeds, C110_copy, C110_sample, C110_stored_chord, C110_stored_galilean, C110_stored_step, C111_assign, C111_assigned, C111_copy, C111_copy_delta, C111_copy_refuted, C111_last, C111_limits, C111_ncomp_refuted, C111_parameters, C111_repeating_refuted, C111_splines_refuted, C111_step, C112_copy, C112_copy_fails_refuted, C112_copy_head_fails, C112_fails_refuted, C112_inside_refuted, C112_isolate, C112_shared_refuted, C113_assign, C113_build, C113_copy, C113_count_refuted, C113_forgotten_refuted, C113_members, C113_plus, C113_short_refuted, C13_delete, C13_delete_after_insert, C13_insert, C13_refused, C14_grow, C14_shrink, C14_shrink_with_kept_refuted, C15_birth_keeps_walker, C15_constructor_count, C15_count_per_component, C15_count_repeating, C15_death_keeps_walker, C15_grow_succeeds, C15_shrink_succeeds, C15_zero_components_refuted, C16_only_own_free_parameters, C17_count, C19_count, C20_get_name, C20_get_prior, C20_has_priors_refuted, C20_next_prior, C20_next_prior_brackets_refuted, C20_set_limits, C20_set_limits_one_side_refuted, C20_set_prior, C20_set_prior_spills_refuted, C35_copy_dynamic_refuted, C35_injective, C35_lengths, C36_shrink_refused, C37_all_pixels, C37_argument_refuted, C37_order_C, C37_order_F_cube, C37_order_F_refuted, C37_order_F_rows, C37_resize, C37_rows, C38_used, C42_split, C43_callable_refuted, C44_accepts, C44_copy, C44_layout, C45_copy_no_prior, C45_fixed_argument_refuted, C45_keep_marks, C45_keep_none, C45_noise_copy_refuted, C46_dynamic_ids_unique_refuted, C46_static_ids_unique, C55_unit_refuted, C58_unit, C58_unit_refuted, C64_constant_copy_refuted, C64_product_name, C64_product_title_refuted, C64_product_unit, C64_surface_columns, C64_surface_name, C65_cg_gradient_refuted, C65_curve_limits, C65_scipy_method_refuted, C67_prior, C68_first_refuted, C71_default_refuted, C72_pipe_next, C72_pipe_next_refuted, C73_weights_refuted, C75_astropy_derivative_refuted, C75_user, C77_compound_refuted, C77_prior, C80_names, C80_names_refuted, C80_origin, C81_stdevScale_refuted, C82_near_idle_refuted, C82_near_proposal, C83_lists, C85_boost, C85_case, C85_copymode, C85_distribution, C85_distribution_known, C85_engines, C85_engines_unknown, C85_evidence_refuted, C85_initial, C85_limits_refuted, C85_preferred, C85_problem, C85_problem_data_refuted, C85_problem_kept, C85_problem_name, C85_solver_distribution_refuted, C85_solver_dynamic_refuted, C86_empty_refuted, C87_aveknt_zero, C87_integer, C87_integer_refuted, C88_calls_refuted, C88_errors_refuted, C88_reports, C88_select, C88_step, C88_stuck_refuted, C88_threads, C88_update_ends, C88_worst, C89_index, C89_limits, C89_limits_hyper_refuted, C89_limits_list_refuted, C89_limits_order_refuted, C89_limits_shared_refuted, C89_limits_some, C90_index, C90_walk, C91_format, C91_format_all, C91_format_lines, C91_format_row, C91_init, C91_linelength_refuted, C91_settings, C91_single, C92_heading, C92_heading_refuted, C92_lines, C92_marks, C92_nuisance_refuted, C92_plots, C92_reports, C92_tail, C93_bracket_refuted, C93_brackets, C93_ends, C93_first, C93_fixed, C93_fixed_numbers, C93_letter, C93_letters, C93_numbers, C93_polynomial, C93_polynomial_refuted, C93_shift, C93_short, C93_short_refuted, C93_short_sign, C93_small, C93_square_refuted, C93_two, C93_two_sign, C94_marker, C95_append, C95_brackets_refuted, C95_complete, C95_dynamic, C95_engine, C95_engine_forced, C95_engines, C95_evidence, C95_modifiable, C95_modifiable_refuted, C95_one, C95_one_refuted, C95_sound, C95_static_refuted, C95_structure, C96_chain, C96_chain_range, C96_chain_refuted, C96_combi, C96_combi_refuted, C96_fixed, C96_fixed_refuted, C96_head, C96_integral_units, C96_own_units, C96_pade_refuted, C96_repeat, C97_copy, C97_name_back, C97_parse_name, C97_parse_none, C97_parse_number, C97_positive, C98_brief, C98_brief_length, C98_full, C98_maxiter, C98_once_refuted, C98_plot, C98_plot_refuted, C98_quiet, C98_robust, C98_robust_brief, C98_robust_end, C98_shown, C99_default, C99_fits, C99_grow_refuted, C99_named, C99_number, C99_shrink, C99_shrink_error
* `ClassicalDedekindReals.sig_forall_dec`:
  C106_empty, C106_padding_refuted, C106_parameters, C108_chain_refuted, C108_tied_refuted, C110_engine, C110_frozen, C110_stored, C110_view_refuted, C19_expand, C19_out_of_range_refuted, C19_select_expand, C19_short_list_refuted, C30_init_keep, C32_selection, C42_copy, C50_shrink, C53_negative, C54_copy, C54_copy_refuted, C60_fitlist, C60_keep, C60_keep_refuted, C60_keep_values, C61_death_components, C64_constant, C64_constant_fixed_refuted, C64_product, C65_scipy_bounds_refuted, C65_scipy_limits_refuted, C67_init, C72_numeric, C72_numeric_refuted, C73_partials, C73_weights, C74_accuracy, C74_copy, C74_ndata_refuted, C74_sumweight, C75_astropy, C75_astropy_columns, C75_user_fixed_refuted, C80_compound_refuted, C80_empty_selection_refuted, C80_result, C80_selection, C80_selection_range, C85_boost_refuted, C85_connected, C85_new_distribution_refuted, C85_sampler, C85_solver, C88_update, C89_next, C90_map, C90_map_returns, C90_map_short, C90_roundtrip, C91_bools_refuted, C91_float32_refuted, C91_lists, C91_names, C91_setAttribute, C91_stored, C91_types, C91_values, C92_hypars, C92_nomodel_refuted, C92_parts
* `ClassicalDedekindReals.sig_forall_dec`, `FunctionalExtensionality.functional_extensionality_dep`:
  C04_default_scale, C04_logL_is_minus_length, C04_oneway, C04_reversal_invariant, C04_rotation_invariant, C100_accept, C100_accuracy, C100_iterative, C100_list_refuted, C100_nan, C100_negative_refuted, C100_refused, C100_weight_values, C100_weights, C103_harmonic_init_refuted, C103_lorentz, C103_pade, C103_pade_init, C104_argument, C104_argument_refuted, C104_built, C104_checked, C104_default_refuted, C104_few, C104_none_refuted, C106_last, C106_modus_refuted, C11_heaviest_kept_partial, C11_smallest_removed_refuted, C11_weed_size_and_order, C12_low_logL, C12_modus, C16_shuffle_keeps_value, C16_value_is_sum, C17_copy, C17_value, C18_fixed_behind_pipe_refuted, C18_pipe_into_compound_refuted, C19_gradient, C27_normalize_refuted, C27_null_refuted, C27_optimum, C27_unique, C29_chisq_extra, C29_failed_refuted, C29_fit, C29_limits, C29_worse_refuted, C30_count_refuted, C30_fit_init, C30_fit_keep, C30_later_refuted, C30_override_refuted, C33_squared_tophat_refuted, C33_tophat_fwhm, C33_tophat_known, C34_nan_refuted, C34_parlist_refuted, C35_copy, C35_round_trip, C36_grow_refused, C36_shrink_refuted, C40_edge_refuted, C40_full_chord, C40_run, C40_start, C41_columns, C41_congruent, C41_identity, C41_interval, C41_large_refuted, C41_one_period, C41_plain, C41_shortest, C42_argument_refuted, C42_copy_refuted, C42_copy_scalar_refuted, C42_no_accuracy, C42_partial_matrix, C42_positive, C42_quadratic, C42_scalar_refuted, C42_unit, C43_bounds, C43_domain, C43_no_iteration_refuted, C43_not_converged_refuted, C43_onesided, C43_weights, C44_copy_refuted, C44_result, C45_fitlist, C45_keep_refuted, C49_tophat_refuted, C50_grow, C50_vary, C50_vary_mask_refuted, C50_vary_split_refuted, C51_corners, C51_flat_accepted_refuted, C51_good_refused_refuted, C51_one_parameter_refuted, C51_start, C51_upper_refuted, C52_basis, C52_histogram_refuted, C52_polynomial, C52_result, C52_units, C53_gibbs, C53_gibbs_size, C53_random, C53_random_range, C53_random_range_refuted, C53_step, C53_step_size, C54_chain_refuted, C54_endless_refuted, C54_false_refuted, C54_grow, C54_grow_otherwise, C54_last_refuted, C54_priors_refuted, C54_run, C54_shrink, C54_vary, C54_varyAlt, C55_name, C55_result, C56_eccentricity_unit_refuted, C60_dynamic, C60_fixed_refuted, C60_retry_refuted, C60_static, C61_birth, C61_death, C61_history, C61_structure_append, C61_structure_inplace, C62_copy_refuted, C62_derivative_last_refuted, C62_outside, C62_partition, C62_recursion, C62_result, C62_single_refuted, C64_pixels, C64_pixels_center_refuted, C64_pixels_line, C64_pixels_tophat, C64_product_partials, C64_surface, C64_surface_cap_refuted, C64_surface_name_refuted, C64_surface_result, C64_surface_unit_refuted, C65_amoeba, C65_curve_bounds, C65_curve_bounds_refuted, C65_gauss_hessian_scale_refuted, C65_logl_gradient, C65_scipy, C65_scipy_par0_refuted, C65_value, C67_again_refuted, C67_chain_refuted, C67_fitter, C67_inside, C67_keep, C67_keep_refuted, C67_kept, C67_limit, C67_missing_refuted, C67_none, C67_optimal, C67_override_refuted, C67_shape_refuted, C67_two_refuted, C68_variant, C72_derivative, C72_difference_refuted, C72_partials, C72_partials_refuted, C72_pipe, C72_product_refuted, C72_product_wrong_refuted, C73_residuals, C74_accuracy_refuted, C74_cyclic, C74_cyclic_refuted, C74_poke_refuted, C75_alone, C75_close, C75_first_refuted, C75_inplace, C75_multiply_refuted, C75_operator, C75_subtract_refuted, C82_documented_refuted, C82_exchange, C82_level, C82_nearest, C82_parallel, C82_search, C82_table_refuted, C82_upright_refuted, C82_upright_second, C82_what_is_tested, C84_easy_refuted, C84_linear, C84_normalized, C84_periodic_few_refuted, C84_points, C84_segment, C84_support, C86_best_only, C86_better, C86_fails, C86_keep_refuted, C86_more_hyper_refuted, C86_no_hyper_refuted, C86_one, C87_accepts, C87_aptknt, C87_aveknt, C87_aveknt_between, C87_aveknt_rises, C87_knots_rise, C87_last_row_refuted, C87_mlt, C87_order_zero_refuted, C87_repeated, C87_repeated_refuted, C87_spcol, C87_suitable, C88_above, C88_appended, C88_checked, C88_ends, C88_few_refuted, C88_fine, C88_others, C88_passes, C88_run, C88_slow_refuted, C88_unset_refuted, C89_derivatives, C89_logL, C89_parlist_refuted, C89_partials, C89_quadratic, C89_test, C89_test_none, C89_test_number_refuted, C90_box, C90_check, C90_copies, C90_copies_dynamic, C90_copies_ends, C90_copies_fine, C90_dynamic_fine, C90_endless_refuted, C90_nobox, C90_nomodel_refuted, C90_nuisance, C90_nuisance_refuted, C90_sign_refuted, C90_unset, C91_nice, C91_nice_zero, C92_continue, C92_converged, C92_maximum_refuted, C92_minimum_refuted, C92_rate, C92_rate_first, C92_rate_refuted, C92_stepOut, C92_stepOut_ends, C92_stop, C94_band_values, C94_fit_given, C94_fit_made, C94_fit_residual_refuted, C94_fit_shown, C94_grid, C94_limits, C94_margins, C94_points_inside, C94_points_prefix, C94_points_share, C94_points_total, C94_residual_values, C94_xlim, C94_ylim_refuted, C96_chebyshev_refuted, C96_integral, C96_kernel, C96_lorentz, C96_pade, C96_polynomial, C96_sum, C97_units_circle, C97_units_ellipse
* `ClassicalDedekindReals.sig_forall_dec`, `ClassicalDedekindReals.sig_not_dec`, `FunctionalExtensionality.functional_extensionality_dep`:
  C103_etalon, C103_etalon_drift, C103_etalon_negative, C103_exp, C103_harmonic, C103_linear_init, C103_logistic_formula, C103_sine_init, C103_sine_phase, C103_sines, C106_average_defined, C106_average_values, C106_dynamic_refuted, C106_generations, C106_median_refuted, C12_average_between_extremes, C12_median, C12_stdev, C18_copy, C18_derivative, C18_gradient, C28_history, C28_keep_refuted, C28_same, C28_squares, C28_stale_refuted, C28_weights_refuted, C30_count, C30_stdev, C30_stdev_refuted, C32_chebyshev_polynomials, C32_pseudovoigt_fixed_refuted, C33_sinc_formula, C33_sinc_model, C33_sinc_positive, C33_sinc_zeros, C33_squared_missing_refuted, C38_call, C38_dependent_refuted, C38_orthonormal, C38_returned, C39_interpolate, C39_interpolate_inf_refuted, C39_many_refuted, C39_mirror, C39_reflect, C39_run, C39_size, C39_stuck_refuted, C39_unit_gradient_refuted, C43_other_kernel_refuted, C44_derivative, C49_profile, C56_axis_refuted, C56_circular, C56_rest, C57_cosine, C57_unit_refuted, C58_columns, C58_parlist_refuted, C58_plain, C58_probabilities, C58_shift, C58_single, C58_size, C59_variance, C63_drift_derivative_refuted, C63_drift_unit_refuted, C63_poly_name_refuted, C63_poly_unit, C63_spline_derivative_refuted, C63_spline_unit, C65_curve, C65_curve_fit, C65_curve_keep_refuted, C68_average, C68_covariance, C68_error, C68_factor, C68_fitter, C68_linear, C68_sample_error, C68_stale_refuted, C68_zero, C71_default, C78_selection, C80_derivative, C80_partials, C81_list, C81_plain, C82_downhill_refuted, C82_untie, C92_journey, C92_journey_none, C92_sample, C96_etalon, C96_etalondrift, C96_exp, C96_gauss, C96_harmonic, C96_logistic, C96_pseudovoigt, C96_sine, C96_sine_phase, C96_sineamp, C96_sinedrift, C96_voigt, C97_angle, C97_angle_refuted, C97_copy_result, C97_new, C97_refused, C97_reshape_refuted, C97_result, C97_set, C97_start, C97_start_values, C97_units_rotated
* `ClassicalDedekindReals.sig_forall_dec`, `Classical_Prop.classic`, `FunctionalExtensionality.functional_extensionality_dep`:
  C34_linear, C34_one_leaf, C34_partials, C34_partition, C34_result, C34_sort, C35_decoded_size_refuted, C36_grow, C36_history, C36_shrink
* `ClassicalDedekindReals.sig_forall_dec`, `ClassicalDedekindReals.sig_not_dec`, `Classical_Prop.classic`, `FunctionalExtensionality.functional_extensionality_dep`:
  C04_great_circle, C04_metrics, C07_climbs, C07_final_ensemble_on_top, C07_limit_never_decreases, C07_survivors_untouched, C08_evidence_during_the_run, C08_evidence_is_sum_of_weights, C08_final_weights_are_shares, C08_normalised_weights, C08_weeding_keeps_evidence, C08_weight_is_width_times_likelihood, C09_geometric_widths, C09_mass_at_most_one, C09_mass_exact, C09_remaining_mass_used_refuted, C103_arctan, C103_chebyshev, C103_drift, C103_etalon_infinite, C103_gauss, C103_init, C103_logistic, C103_logistic_formula_refuted, C103_lorentz_integral, C103_powerlaw, C103_pseudovoigt, C103_pseudovoigt_width, C103_pseudovoigt_width_refuted, C103_sine, C105_fixed, C105_fixed_converges, C105_fixed_refuted, C105_halley_converges, C105_newton, C105_newton_converges, C106_first, C106_kept, C106_normalized, C106_normalized_refuted, C106_rising, C107_again, C107_again_refuted, C107_first, C107_linear_refuted, C107_list_base, C107_list_evidence_refuted, C10_ids_unique_and_increasing, C21_circular, C21_exponential, C21_limited, C21_unlimited, C22_far_tail_refuted, C22_in_limits, C22_to_unit, C23_circular_true_refuted, C23_density, C23_density_unlimited, C23_integral, C23_limits_later_refuted, C23_partial_log, C23_unbound_jeffreys_refuted, C24_circular_refuted, C24_failure_refuted, C24_history, C24_one_side_refuted, C24_scale_refuted, C24_unset_refuted, C25_bernoulli, C25_cauchy, C25_exponential, C25_gauss, C25_laplace, C25_mixed, C25_poisson, C25_uniform, C25_unused_scale_refuted, C26_bernoulli_refuted, C26_cauchy, C26_exponential, C26_exponential_fixed_power_refuted, C26_gauss, C26_integer_accuracy_refuted, C26_laplace, C26_laplace_scale_refuted, C26_poisson, C26_uniform, C26_uniform_cyclic_refuted, C31_limits, C31_limits_refuted, C31_lowest, C31_tie_refuted, C31_zero, C32_arctan, C32_chebyshev, C32_etalon, C32_etalon_drift_partials, C32_etalon_drift_slope_refuted, C32_exp, C32_gauss, C32_harmonic, C32_kernelmodel, C32_logistic, C32_lorentz, C32_pade, C32_polynomial, C32_power, C32_powerlaw, C32_pseudovoigt, C32_sine, C32_sine_amplitudes, C32_sine_drift, C32_sine_phase, C33_fwhm, C33_integral, C33_partials, C33_peaked, C33_range, C33_sinc_formula_refuted, C33_sinc_top, C33_squared, C33_tophat_integral, C33_tophat_partials, C33_tophat_peaked, C33_tophat_range, C42_gradient, C43_kernels, C43_sinc_refuted, C44_both_refuted, C44_gradient, C45_copy_limited, C45_copy_unlimited, C45_errdis_copy_refuted, C45_history, C45_hyper_limits_refuted, C45_mixed_order, C45_noise_limits, C45_power_refuted, C45_prior_limits_refuted, C45_scaled, C45_set_limits, C47_final_information_refuted, C47_information_during_the_run, C48_at_most_maxIterations_refuted, C48_iterations_bounded, C48_stops_for_a_reason, C49_circle, C49_ellipse, C49_rotated, C51_constant_refuted, C51_cooling, C52_derivative, C52_derivative_refuted, C52_lines_refuted, C52_smooth, C52_two_knots, C55_derivative, C55_partials, C56_areas, C56_converged, C56_derivative, C56_ellipse, C56_kepler, C56_msini, C56_msini_refuted, C56_partials, C56_unit_refuted, C56_velocity, C57_derivative, C57_partials, C57_projection, C57_rectangular, C57_scaling, C57_spherical, C58_derivative, C58_order, C58_partials, C58_partials_sum, C58_transfer, C59_compound_refuted, C59_errors, C59_evidence, C59_likelihood, C59_likelihood_refuted, C59_log10, C59_nofree, C59_noise_refuted, C59_ranges, C62_continuous, C62_d, C62_derivative, C62_derivative_first, C62_higher, C63_drift, C63_poly, C63_spline, C64_product_unit_refuted, C65_curve_jacobian, C65_gauss_hessian_refuted, C65_gradient, C65_hessian, C65_hessian_keep_refuted, C65_hessian_refuted, C66_array, C66_float_large_refuted, C66_float_refuted, C66_increasing, C66_negative_refuted, C66_number, C66_single_refuted, C66_towards_zero, C69_bernoulli, C69_bernoulli_refuted, C69_cauchy, C69_cauchy_sigma_refuted, C69_cyclic_refuted, C69_exponential, C69_gauss, C69_laplace, C69_mixed, C69_poisson, C69_uniform, C70_alternative, C70_alternative_refuted, C70_density, C70_normalisation_refuted, C70_parameters, C70_scale, C71_autoscale, C71_autoscale_laplace_refuted, C71_autoscale_uniform_refuted, C71_cauchy_range_refuted, C71_cauchy_refuted, C71_exponential, C71_exponential_refuted, C71_gauss, C71_gauss_accuracy_refuted, C71_laplace, C71_uniform, C71_uniform_refuted, C73_scale, C73_scale_refuted, C76_copy, C76_copy_refuted, C76_evidence, C76_fitter_refuted, C76_fitter_size_refuted, C76_linear_refuted, C76_nested, C76_nested_refuted, C76_runtime_refuted, C76_singular, C76_weights_refuted, C77_fixed_refuted, C77_free, C77_last_refuted, C77_partials, C77_result, C78_convolution, C78_partials, C78_shape, C78_slope, C79_construct, C79_copy, C79_copy_refuted, C79_dynamic, C79_flat_refuted, C79_history, C79_law_exponential, C79_law_uniform, C79_rates_exponential, C79_rates_uniform, C79_start, C79_start_refuted, C79_static_refuted, C81_asked_circular, C81_asked_once, C81_circular, C81_circular_periods, C81_circular_single, C81_circular_stdev, C81_circular_turn, C81_circular_unique, C81_stale_refuted, C81_stdevHypar_refuted, C83_bernoulli_element, C83_bernoulli_gradient, C83_bernoulli_no_class, C83_bernoulli_partials, C83_bernoulli_two, C83_beyond, C83_elements, C83_gradient, C83_poisson_first, C83_power_first, C83_power_second, C83_power_second_refuted, C83_second_without_refuted, C83_value, C84_smooth, C87_derivatives, C89_derivative, C89_logL_accuracy, C89_partial_accuracy, C89_prior, C92_attribute_refuted, C92_evidence, C92_others, C94_movie_backend, C94_movie_backend_refuted, C94_movie_data, C94_movie_data_refuted, C94_movie_first, C94_movie_frame, C94_movie_frames, C94_movie_second_refuted, C96_arctan, C96_power, C96_power_refuted, C96_powerlaw, C96_powerlaw_refuted, C96_pseudovoigt_refuted, C97_amplitude_refuted
