{"id": "C01", "title": "Order moves keep a valid tour", "statement": "Whatever the random numbers, every parameter list proposed by an order engine (Move, Reverse, Shuffle, Switch, Loop, Near, StartOrder) visits exactly the same nodes, each the same number of times, as the list it started from; hence after any run of an order problem every walker is still a permutation of 0..n-1.", "quantifier": "all tours of all lengths, all random draws the engine may make, all sequences of engine calls", "why_tests_cant": "the number of tours and of random streams is unbounded; a test samples a few seeds", "anchors": ["BayesicFitting/source/MoveEngine.py:executeOnce", "BayesicFitting/source/ReverseEngine.py:executeOnce", "BayesicFitting/source/ShuffleEngine.py:execute", "BayesicFitting/source/SwitchEngine.py:executeOnce", "BayesicFitting/source/LoopEngine.py:executeOnce", "BayesicFitting/source/NearEngine.py:execute", "BayesicFitting/source/StartOrderEngine.py:execute"]}
{"id": "C02", "title": "An engine call only replaces the walker it was asked to move", "statement": "Engine.execute(kw,...) may change walker number kw of the ensemble and no other; the other walkers keep their parameters and likelihood.", "quantifier": "all ensembles (in any order after sorting), all indices, all accepted proposals", "why_tests_cant": "depends on the history of sorting and copying walkers: identity numbers and list positions agree at the start of every run and drift apart later", "anchors": ["BayesicFitting/source/Engine.py:setWalker", "BayesicFitting/source/WalkerList.py:setWalker", "BayesicFitting/source/NestedSampler.py:sample", "BayesicFitting/source/MoveEngine.py:executeOnce", "BayesicFitting/source/SwitchEngine.py:executeOnce"]}
{"id": "C03", "title": "A move count of an order engine means a move was made", "statement": "An order engine reports success (a non-zero move count) exactly when a new tour with log-likelihood at or above the lower limit has been stored.", "quantifier": "all likelihood functions, all random draws, all limits", "why_tests_cant": "the failing path needs a proposal rejected at the very last trial length", "anchors": ["BayesicFitting/source/ReverseEngine.py:executeOnce", "BayesicFitting/source/MoveEngine.py:executeOnce", "BayesicFitting/source/SwitchEngine.py:executeOnce", "BayesicFitting/source/OrderEngine.py:execute"]}
{"id": "C04", "title": "Tour length is a property of the cycle", "statement": "The length SalesmanProblem assigns to a closed, unweighted tour does not change when the tour is started at another city or travelled in the opposite direction (symmetric distances), is non-negative, and the log-likelihood of an order problem is minus that length.", "quantifier": "all numbers of cities, all tours, all distance functions that are symmetric and non-negative", "why_tests_cant": "quantifies over all tours and all geometries", "anchors": ["BayesicFitting/source/SalesmanProblem.py:result", "BayesicFitting/source/SalesmanProblem.py:manhattan", "BayesicFitting/source/SalesmanProblem.py:euclidic", "BayesicFitting/source/DistanceCostFunction.py:logLdata"]}
{"id": "C05", "title": "Phantom list is kept ordered and complete", "statement": "Storing walkers one by one in a phantom list yields a list ordered by log-likelihood that contains exactly the stored walkers; cropping at a limit leaves exactly the walkers above it.", "quantifier": "all sequences of stored walkers, with ties, and all crop levels", "why_tests_cant": "invariant over unbounded histories of insertions and crops", "anchors": ["BayesicFitting/source/WalkerList.py:insertWalker", "BayesicFitting/source/WalkerList.py:firstIndex", "BayesicFitting/source/WalkerList.py:cropOnLow", "BayesicFitting/source/PhantomCollection.py:storeItems"]}
{"id": "C06", "title": "The phantom box encloses every live phantom", "statement": "The parameter ranges returned by getParamMinmax(lowL) enclose the parameters of every phantom stored (so far) with log-likelihood at or above lowL, and each bound is attained.", "quantifier": "all interleavings of storeItems and getParamMinmax with arbitrary limits", "why_tests_cant": "stale-cache behaviour shows only in particular interleavings", "anchors": ["BayesicFitting/source/PhantomCollection.py:storeItems", "BayesicFitting/source/PhantomCollection.py:calculateParamMinmax", "BayesicFitting/source/PhantomCollection.py:getParamMinmax"]}
{"id": "C07", "title": "Nested sampling climbs and keeps its ensemble", "statement": "In every iteration the ensemble keeps its size, all walkers satisfy the likelihood constraint, and the log-likelihoods of the discarded samples never decrease from one iteration to the next.", "quantifier": "all ensembles, all explorers that honour the constraint, all random choices of the walker to copy, any number of iterations", "why_tests_cant": "invariant of an unbounded stochastic loop", "anchors": ["BayesicFitting/source/NestedSampler.py:sample", "BayesicFitting/source/NestedSampler.py:updateWalkers", "BayesicFitting/source/NestedSampler.py:copyWalker", "BayesicFitting/source/Explorer.py:exploreWalker"]}
{"id": "C08", "title": "The evidence is the sum of the sample weights", "statement": "When no samples are weeded, the reported logZ equals the logarithm of the sum of exp(logW) over all samples collected, and after normalisation the weights are non-negative and sum to one.", "quantifier": "all runs: all likelihood sequences, priors of the walkers, ensemble sizes, discard numbers and iteration counts", "why_tests_cant": "an accounting identity over an arbitrary history of updates", "anchors": ["BayesicFitting/source/NestedSampler.py:updateEvidence", "BayesicFitting/source/NestedSampler.py:sample", "BayesicFitting/source/SampleList.py:normalize"]}
{"id": "C09", "title": "The prior mass is used at most once", "statement": "The prior widths handed out to the discarded samples and to the remaining walkers are positive, decrease geometrically and sum to at most one.", "quantifier": "all ensemble sizes, discard numbers and iteration counts", "why_tests_cant": "geometric series over an unbounded number of iterations", "anchors": ["BayesicFitting/source/NestedSampler.py:updateEvidence", "BayesicFitting/source/NestedSampler.py:sample"]}
{"id": "C10", "title": "Sample identities are unique", "statement": "No two samples in the sample list carry the same id, and ids are handed out in increasing order.", "quantifier": "all sequences of add and copy operations", "why_tests_cant": "history property", "anchors": ["BayesicFitting/source/SampleList.py:add", "BayesicFitting/source/SampleList.py:copy", "BayesicFitting/source/SampleList.py:addSamples"]}
{"id": "C11", "title": "Weeding keeps the heaviest samples", "statement": "weed(maxsize) leaves at most maxsize samples, keeps their order, and drops the samples of smallest weight.", "quantifier": "all sample lists, all weights, all maxsize", "why_tests_cant": "the documented order statistics must hold for every weight profile", "anchors": ["BayesicFitting/source/SampleList.py:weed"]}
{"id": "C12", "title": "Weighted averages lie between the extremes", "statement": "The parameters averaged over a normalised sample list lie between the smallest and largest sampled value; the median index splits the weight in halves; the modus index points at the largest weight.", "quantifier": "all weight lists summing to one, all sampled values", "why_tests_cant": "for all lists", "anchors": ["BayesicFitting/source/SampleList.py:averstd", "BayesicFitting/source/SampleList.py:getMedianIndex", "BayesicFitting/source/SampleList.py:normalize"]}
{"id": "C13", "title": "Growing and shrinking touch only the dynamic slot", "statement": "alterParameters inserts (deletes) exactly the requested slice: every other parameter keeps its value and its order; deleting what was just inserted restores the list; deletion beyond the start raises IndexError.", "quantifier": "all parameter lists, offsets, locations, sizes", "why_tests_cant": "index arithmetic over all positions", "anchors": ["BayesicFitting/source/Dynamic.py:alterParameters"]}
{"id": "C14", "title": "The fit index follows the parameters", "statement": "After grow/shrink, alterFitindex produces the index list that selects the same old parameters (at their new positions) plus the new ones, and leaves hyper-parameter indices (negative) alone.", "quantifier": "all sorted fit indices with all parameters free in the altered slice, all offsets, locations and sizes", "why_tests_cant": "index arithmetic over all positions", "anchors": ["BayesicFitting/source/Dynamic.py:alterFitindex"]}
{"id": "C15", "title": "Component count and parameter count stay consistent", "statement": "Under any sequence of grow and shrink calls a dynamic model keeps minComp <= ncomp <= maxComp and its number of parameters equals the number the component count demands.", "quantifier": "all sequences of grow/shrink, all chain positions", "why_tests_cant": "history property", "anchors": ["BayesicFitting/source/Dynamic.py:grow", "BayesicFitting/source/Dynamic.py:shrink", "BayesicFitting/source/RepeatingModel.py:__init__", "BayesicFitting/source/RepeatingModel.py:grow", "BayesicFitting/source/RepeatingModel.py:shrink", "BayesicFitting/source/PolynomialDynamicModel.py:changeNComp", "BayesicFitting/source/HarmonicDynamicModel.py:changeNComp"]}
{"id": "C16", "title": "Shuffling the components does not change the model", "statement": "RepeatingModel.shuffle permutes the parameter groups of the components; the value of the repeating model is the same before and after, for every x.", "quantifier": "all component counts, all shared-parameter layouts, all permutations, all base models", "why_tests_cant": "for all permutations and layouts", "anchors": ["BayesicFitting/source/RepeatingModel.py:shuffle", "BayesicFitting/source/RepeatingModel.py:baseResult", "BayesicFitting/source/RepeatingModel.py:par2model"]}
{"id": "C17", "title": "A chain evaluates left to right over consecutive parameter slices", "statement": "The result of a compound model equals combining its parts from left to right, each part reading the next slice of the parameter list; the chain's parameter count is the sum of those of its parts.", "quantifier": "all chains built by any sequence of +, -, *, / and | with nested brackets; all parameter lists", "why_tests_cant": "structural property of an unbounded tree of models", "anchors": ["BayesicFitting/source/Model.py:appendModel", "BayesicFitting/source/Model.py:_recursiveResult", "BayesicFitting/source/Model.py:operate", "BayesicFitting/source/Model.py:Brackets"]}
{"id": "C18", "title": "Partial derivatives of a compound model are its derivatives", "statement": "If every part returns its true partial derivatives, the matrix returned by partial() of the compound model holds the true partial derivative of result() to every parameter.", "quantifier": "all chains over +,-,*,/ and |, all parameters, all x where the denominators are non-zero", "why_tests_cant": "numeric tests sample points; the claim is an identity", "anchors": ["BayesicFitting/source/Model.py:_recursivePartial", "BayesicFitting/source/Model.py:_recursiveDerivative", "BayesicFitting/source/FixedModel.py:partial"]}
{"id": "C19", "title": "Fixed parameters are transparent", "statement": "With parameters fixed, expanding the free parameters puts every fixed value at its index and every free one in order elsewhere; selecting the free ones back returns the original list.", "quantifier": "all parameter counts, all sets of fixed indices", "why_tests_cant": "for all subsets", "anchors": ["BayesicFitting/source/FixedModel.py:_setFixed", "BayesicFitting/source/FixedModel.py:expand", "BayesicFitting/source/FixedModel.py:select"]}
{"id": "C20", "title": "Per-parameter attributes are found in the right sub-model", "statement": "getPrior(k)/setPrior(k)/getParameterName(k)/unit2Domain(k) of a chain act on the parameter that stands at position k of the full list, i.e. the k-th over all sub-models in order, and on no other.", "quantifier": "all chains, all indices", "why_tests_cant": "index decomposition over unbounded chains", "anchors": ["BayesicFitting/source/Model.py:getPrior", "BayesicFitting/source/Model.py:setPrior", "BayesicFitting/source/Model.py:getParameterName", "BayesicFitting/source/Model.py:nextPrior", "BayesicFitting/source/Model.py:hasPriors", "BayesicFitting/source/BaseModel.py:setPrior", "BayesicFitting/source/BaseModel.py:basePrior"]}
{"id": "C21", "title": "Unit and domain are each other's inverse", "statement": "For every prior, unit2Domain(domain2Unit(d)) = d on the domain and domain2Unit(unit2Domain(u)) = u for u in (0,1), with and without limits.", "quantifier": "all priors (Uniform, Jeffreys, Exponential, Laplace, Cauchy, Gauss, circular or not), all legal scales, centers and limits, all values", "why_tests_cant": "real-valued identity", "anchors": ["BayesicFitting/source/Prior.py:limitedDomain2Unit", "BayesicFitting/source/Prior.py:limitedUnit2Domain", "BayesicFitting/source/Prior.py:setPriorAttributes", "BayesicFitting/source/UniformPrior.py", "BayesicFitting/source/JeffreysPrior.py", "BayesicFitting/source/ExponentialPrior.py", "BayesicFitting/source/LaplacePrior.py", "BayesicFitting/source/CauchyPrior.py"]}
{"id": "C22", "title": "Samples drawn from a limited prior respect the limits", "statement": "For every u in [0,1], unit2Domain(u) of a prior with limits lies within the limits, increases with u, and so does domain2Unit.", "quantifier": "all priors, limits and u", "why_tests_cant": "for all reals", "anchors": ["BayesicFitting/source/Prior.py:limitedUnit2Domain", "BayesicFitting/source/Prior.py:setLimits", "BayesicFitting/source/Prior.py:isOutOfLimits", "BayesicFitting/source/Prior.py:stayInLimits"]}
{"id": "C23", "title": "A prior's density is the derivative of its cumulative", "statement": "result(d) equals the derivative of domain2Unit(d) (up to the reported normalising integral), and partialLog(d) is the derivative of logResult(d).", "quantifier": "all priors, scales, limits and interior points", "why_tests_cant": "identity of real functions", "anchors": ["BayesicFitting/source/UniformPrior.py:result", "BayesicFitting/source/JeffreysPrior.py:result", "BayesicFitting/source/ExponentialPrior.py:result", "BayesicFitting/source/LaplacePrior.py:result", "BayesicFitting/source/CauchyPrior.py:result", "BayesicFitting/source/Prior.py:getIntegral"]}
{"id": "C24", "title": "Limits and mapping of a prior agree at all times", "statement": "After any sequence of setLimits, setAttributes and unsetLimits the unit mapping of a prior corresponds to the limits it reports.", "quantifier": "all sequences of operations on a prior", "why_tests_cant": "history property", "anchors": ["BayesicFitting/source/Prior.py:setLimits", "BayesicFitting/source/Prior.py:unsetLimits", "BayesicFitting/source/Prior.py:setPriorAttributes"]}
{"id": "C25", "title": "Gradients of the log-likelihood are its derivatives", "statement": "For each error distribution, partialLogL returns the derivative of logLikelihood to every model parameter and to every hyper-parameter.", "quantifier": "all data, weights, accuracies, models with correct partials, parameters and positive scales, for Gauss, Laplace, Cauchy, Poisson, Exponential, Bernoulli, Uniform", "why_tests_cant": "identity of real functions over all data", "anchors": ["BayesicFitting/source/GaussErrorDistribution.py:nextPartialData", "BayesicFitting/source/LaplaceErrorDistribution.py:nextPartialData", "BayesicFitting/source/CauchyErrorDistribution.py:nextPartialData", "BayesicFitting/source/PoissonErrorDistribution.py:nextPartialData", "BayesicFitting/source/BernoulliErrorDistribution.py:nextPartialData", "BayesicFitting/source/ExponentialErrorDistribution.py:nextPartialData", "BayesicFitting/source/ErrorDistribution.py:partialLogL"]}
{"id": "C26", "title": "The two likelihood implementations agree", "statement": "logLikelihood_alt and partialLogL_alt return the same values as the sums of logLdata and nextPartialData.", "quantifier": "all data sets", "why_tests_cant": "identity over all data", "anchors": ["BayesicFitting/source/GaussErrorDistribution.py:logLikelihood_alt", "BayesicFitting/source/LaplaceErrorDistribution.py:partialLogL_alt", "BayesicFitting/source/BernoulliErrorDistribution.py:partialLogL_alt", "BayesicFitting/source/CauchyErrorDistribution.py:logLikelihood_alt"]}
{"id": "C27", "title": "The linear fit is the least-squares optimum", "statement": "For a linear model the parameters returned by Fitter.fit minimise the weighted chi-squared over all values of the free parameters, the kept ones being held.", "quantifier": "all designs, data, non-negative weights, kept parameters and competing parameter lists", "why_tests_cant": "for all competitors", "anchors": ["BayesicFitting/source/Fitter.py:fit", "BayesicFitting/source/BaseFitter.py:getHessian", "BayesicFitting/source/BaseFitter.py:getVector", "BayesicFitting/source/BaseFitter.py:insertParameters"]}
{"id": "C28", "title": "QRFitter and Fitter find the same optimum", "statement": "With the same data and weights QRFitter.fit minimises the same weighted chi-squared as Fitter.fit, whatever fits were done before with the same object.", "quantifier": "all data, weights and call histories", "why_tests_cant": "depends on the weights and on cached decompositions", "anchors": ["BayesicFitting/source/QRFitter.py:fit"]}
{"id": "C29", "title": "Levenberg-Marquardt never gets worse", "statement": "The chi-squared returned by LevenbergMarquardtFitter.fit is not larger than that of the starting parameters, successive accepted values never increase, and the parameters returned are the ones that chi-squared belongs to.", "quantifier": "all models, data, starting points, and iteration histories", "why_tests_cant": "unbounded iteration on arbitrary functions", "anchors": ["BayesicFitting/source/LevenbergMarquardtFitter.py:fit", "BayesicFitting/source/LevenbergMarquardtFitter.py:trialfit"]}
{"id": "C30", "title": "Kept parameters stay and are not counted", "statement": "Parameters given in keep retain exactly their value in the fit result and the number of fitted parameters used for the noise scale is the total minus the number kept.", "quantifier": "all keep dictionaries, parameter counts", "why_tests_cant": "for all subsets", "anchors": ["BayesicFitting/source/BaseFitter.py:keepFixed", "BayesicFitting/source/BaseFitter.py:insertParameters", "BayesicFitting/source/BaseFitter.py:fitprolog", "BayesicFitting/source/BaseFitter.py:getScale"]}
{"id": "C31", "title": "The amoeba returns the best point it has seen", "statement": "AnnealingAmoeba.minimize returns the parameters at which the lowest function value was found, within the limits.", "quantifier": "all functions, simplices, temperatures and iteration histories", "why_tests_cant": "history and aliasing property", "anchors": ["BayesicFitting/source/AnnealingAmoeba.py:temperatureStep", "BayesicFitting/source/AnnealingAmoeba.py:inflateSimplex", "BayesicFitting/source/AnnealingAmoeba.py:trialStep", "BayesicFitting/source/AnnealingAmoeba.py:setValues", "BayesicFitting/source/AnnealingAmoeba.py:stayInLimits"]}
{"id": "C32", "title": "The partial derivatives of the elementary models are exact", "statement": "basePartial (and baseDerivative) of each elementary model is the derivative of baseResult to each parameter (to x).", "quantifier": "all x and parameters in the domain, for Polynomial, Chebyshev, Gauss, Lorentz, Exp, PowerLaw, Power, Sine, SineDrift, SineAmp, Harmonic, Arctan, Logistic, Etalon, Pade, PseudoVoigt, Kernel models", "why_tests_cant": "identity of real functions", "anchors": ["BayesicFitting/source/PolynomialModel.py", "BayesicFitting/source/ChebyshevPolynomialModel.py", "BayesicFitting/source/GaussModel.py", "BayesicFitting/source/LorentzModel.py", "BayesicFitting/source/ExpModel.py", "BayesicFitting/source/PowerLawModel.py", "BayesicFitting/source/SineModel.py", "BayesicFitting/source/HarmonicModel.py", "BayesicFitting/source/ArctanModel.py", "BayesicFitting/source/LogisticModel.py", "BayesicFitting/source/EtalonModel.py", "BayesicFitting/source/PadeModel.py", "BayesicFitting/source/KernelModel.py"]}
{"id": "C33", "title": "Kernels integrate to their stated integral and have exact slopes", "statement": "The integral attribute of each kernel equals the integral of its result, partial is its derivative, resultsq(x^2) = result(x), and the kernel peaks with value 1 at 0.", "quantifier": "all x, for each kernel", "why_tests_cant": "identities over the reals", "anchors": ["BayesicFitting/source/kernels/Biweight.py", "BayesicFitting/source/kernels/Triweight.py", "BayesicFitting/source/kernels/Tricube.py", "BayesicFitting/source/kernels/Parabola.py", "BayesicFitting/source/kernels/Cosine.py", "BayesicFitting/source/kernels/CosSquare.py", "BayesicFitting/source/kernels/Triangle.py", "BayesicFitting/source/kernels/Tophat.py", "BayesicFitting/source/kernels/Uniform.py"]}
{"id": "C34", "title": "Decision tree data partition", "statement": "A decision tree model assigns every data row to exactly one leaf, its value there is the leaf's parameter, and partial() is the matching 0/1 indicator.", "quantifier": "all trees, all data tables, all split kinds", "why_tests_cant": "all trees and tables", "anchors": ["BayesicFitting/source/DecisionTreeModel.py:partitionList", "BayesicFitting/source/DecisionTreeModel.py:recursiveResult", "BayesicFitting/source/DecisionTreeModel.py:partial"]}
{"id": "C35", "title": "Decision tree encode/decode round trip", "statement": "decode(encode(tree)) gives back the same tree.", "quantifier": "all trees", "why_tests_cant": "all trees", "anchors": ["BayesicFitting/source/DecisionTreeModel.py:encode", "BayesicFitting/source/DecisionTreeModel.py:decode"]}
{"id": "C36", "title": "Decision tree grow and shrink keep unaffected leaves", "statement": "Growing a leaf adds one parameter next to the old one; shrinking removes the leaves that disappear from the tree; every leaf that is still in the tree keeps its parameter.", "quantifier": "all trees, all locations", "why_tests_cant": "all trees and locations", "anchors": ["BayesicFitting/source/DecisionTreeModel.py:grow", "BayesicFitting/source/DecisionTreeModel.py:shrink", "BayesicFitting/source/Dynamic.py:alterParameters"]}
{"id": "C37", "title": "Image pixels and index rows correspond", "statement": "ImageAssistant.getIndices produces for pixel number i of the flattened image the index at which that pixel stands in the image.", "quantifier": "all image shapes of any rank and both memory orders", "why_tests_cant": "all shapes", "anchors": ["BayesicFitting/source/ImageAssistant.py:getIndices", "BayesicFitting/source/ImageAssistant.py:getydata", "BayesicFitting/source/ImageAssistant.py:resizeData"]}
{"id": "C38", "title": "The orthonormal basis is orthonormal", "statement": "The vectors returned by successive normalise calls have unit length and are mutually orthogonal.", "quantifier": "all sequences of linearly independent vectors of any dimension", "why_tests_cant": "for all sequences", "anchors": ["BayesicFitting/source/OrthonormalBasis.py:normalise"]}
{"id": "C39", "title": "Galilean moves stay in the unit cube and mirror without changing speed", "statement": "Trial steps of GalileanEngine remain inside the unit box, mirroring on the likelihood gradient preserves the length of the velocity and reverses its component along the gradient, and the interpolated step lands on the edge of the likelihood region.", "quantifier": "all positions, velocities, gradients and likelihood values", "why_tests_cant": "real-valued identity for all inputs", "anchors": ["BayesicFitting/source/GalileanEngine.py:trialStep", "BayesicFitting/source/GalileanEngine.py:mirrorOnLowL", "BayesicFitting/source/GalileanEngine.py:quadinterpol"]}
{"id": "C40", "title": "Chord moves stay inside box and bracket", "statement": "Every point tried by ChordEngine lies in the unit box on the chosen line; the bracket always contains the starting point and shrinks.", "quantifier": "all start points, directions, random draws and rejection sequences", "why_tests_cant": "unbounded rejection loop", "anchors": ["BayesicFitting/source/ChordEngine.py:execute"]}
{"id": "C41", "title": "Residuals of cyclic problems are wrapped into one period", "statement": "Problem.cyclize maps residuals to the interval of half a period around zero without changing them modulo the period.", "quantifier": "all residuals and periods", "why_tests_cant": "all reals", "anchors": ["BayesicFitting/source/Problem.py:cyclize", "BayesicFitting/source/Problem.py:residuals"]}
{"id": "C42", "title": "Errors in x and y", "statement": "With accuracies given, weightedResSq of ErrorsInXandYProblem equals the quadratic form of the inverse covariance matrix of the errors; splitting and joining parameters are inverse; the accuracy handed in keeps its value.", "quantifier": "all accuracies, correlations, residuals and weights", "why_tests_cant": "real-valued identity, aliasing", "anchors": ["BayesicFitting/source/ErrorsInXandYProblem.py:setAccuracy", "BayesicFitting/source/ErrorsInXandYProblem.py:weightedResSq", "BayesicFitting/source/ErrorsInXandYProblem.py:splitParam"]}
{"id": "C43", "title": "Robust weights are proper weights", "statement": "RobustShell weights lie between 0 and the original weight and, one-sided, leave the points on the other side untouched.", "quantifier": "all residuals, scales and kernels", "why_tests_cant": "all inputs", "anchors": ["BayesicFitting/source/RobustShell.py:fit", "BayesicFitting/source/RobustShell.py:getOneSidedWeights", "BayesicFitting/source/kernels/Huber.py"]}
{"id": "C44", "title": "Combined parameters", "statement": "CombiModel evaluates its model repeatedly with the parameters tied as declared: (p+add)*mul for tied ones, and its partials follow by the chain rule.", "quantifier": "all repeat counts, all tie declarations", "why_tests_cant": "all layouts", "anchors": ["BayesicFitting/source/CombiModel.py:combine", "BayesicFitting/source/CombiModel.py:setCombi", "BayesicFitting/source/CombiModel.py:expandParameters", "BayesicFitting/source/CombiModel.py:basePartial"]}
{"id": "C45", "title": "Hyper-parameters keep their settings", "statement": "A copied noise scale or hyper-parameter keeps the prior, the limits and the fixed status of the original; giving limits makes it non-fixed.", "quantifier": "all sequences of settings and copies", "why_tests_cant": "history property", "anchors": ["BayesicFitting/source/NoiseScale.py:copy", "BayesicFitting/source/HyperParameter.py:__init__", "BayesicFitting/source/HyperParameter.py:setLimits"]}
{"id": "C46", "title": "Walkers keep distinct identities", "statement": "The ids of the walkers in the ensemble are pairwise distinct at any time.", "quantifier": "all histories of engine moves, sorts, copies and phantom requests, static and dynamic models", "why_tests_cant": "history property with shared objects", "anchors": ["BayesicFitting/source/WalkerList.py:setWalker", "BayesicFitting/source/WalkerList.py:insertWalker", "BayesicFitting/source/Engine.py:setWalker", "BayesicFitting/source/PhantomCollection.py:storeDynamic"]}
{"id": "C47", "title": "Information equals mean log likelihood minus evidence", "statement": "With one walker discarded per iteration, the information reported after every iteration equals the weighted mean of logL over the samples minus logZ.", "quantifier": "all runs, all random choices, any number of iterations; the value reported at the end of the run is included", "why_tests_cant": "recurrence over unbounded executions in exact arithmetic", "anchors": ["BayesicFitting/source/NestedSampler.py:updateEvidence", "BayesicFitting/source/NestedSampler.py:sample"]}
{"id": "C48", "title": "Nested sampling stops for a documented reason", "statement": "When the sampling loop stops, at least minimumIterations were done and the tolerance, the end criterion or maxIterations was reached; never more than max(minimumIterations, maxIterations + 1) iterations are done.", "quantifier": "all runs and settings", "why_tests_cant": "unbounded executions", "anchors": ["BayesicFitting/source/NestedSampler.py:nextIteration", "BayesicFitting/source/NestedSampler.py:getMaxIter", "BayesicFitting/source/NestedSampler.py:sample"]}
{"id": "C49", "title": "Two-dimensional kernel models have the shape and the slopes they promise", "statement": "The circular, elliptic and rotated shapes of a two-dimensional kernel model have the value p0 * K(r), r being the distance to the centre in units of the (rotated) widths, and their partials and derivatives are exact.", "quantifier": "all inputs, parameters with nonzero widths, all kernels with an exact partial and a right resultsq; the value in the centre included", "why_tests_cant": "identity of real functions; the centre is a removable singularity", "anchors": ["BayesicFitting/source/Kernel2dModel.py:Circle", "BayesicFitting/source/Kernel2dModel.py:Ellipse", "BayesicFitting/source/Kernel2dModel.py:Rotated", "BayesicFitting/source/Kernel2dModel.py:BaseShape2d"]}
{"id": "C50", "title": "Decision tree moves keep the tree valid", "statement": "After grow, shrink or vary, every branch of a decision tree still has a split between 0 and 1 on a float dimension or a mask that fits a boolean/categorial dimension: check() stays True.", "quantifier": "all trees, all itypes, all random choices", "why_tests_cant": "all trees and random choices", "anchors": ["BayesicFitting/source/DecisionTreeModel.py:grow", "BayesicFitting/source/DecisionTreeModel.py:shrink", "BayesicFitting/source/DecisionTreeModel.py:vary", "BayesicFitting/source/DecisionTreeModel.py:check"]}
{"id": "C51", "title": "The simplex of AnnealingAmoeba and the end of the search", "statement": "AnnealingAmoeba( func, xini, size=..., limits=... ) starts from len(xini)+1 corners: the start itself and, for each parameter, the start with that parameter moved by its step; a step that leads over a limit is replaced by half the way to that limit; a non-zero step always moves the corner. A simplex with all corners in one place is refused with ValueError, any other is accepted; a start outside a limit is replaced by a finite one inside; minimize() ends after at most maxiter iterations.", "quantifier": "all functions, starts, steps, limits and temperatures", "why_tests_cant": "Tests use one or two starts in two dimensions; which starts are refused and whether the loop ends depends on exact coincidences (a corner with equal coordinates, a flat function).", "anchors": ["BayesicFitting/source/AnnealingAmoeba.py:makeSimplex", "BayesicFitting/source/AnnealingAmoeba.py:checkSimplex", "BayesicFitting/source/AnnealingAmoeba.py:stayInLimits", "BayesicFitting/source/AnnealingAmoeba.py:temperatureStep"]}
{"id": "C52", "title": "Splines are smooth and complete", "statement": "A SplinesModel of order n with increasing knots is a piecewise polynomial of degree n with n-1 continuous derivatives (at the knots too); its matrix of partials holds the truncated-power differences, every polynomial up to degree n is among its results, its derivative is the slope of its result, and the units it gives for its parameters are those of the formula: expressed in other units of x and y the result is the same.", "quantifier": "all orders, all increasing lists of at least two knots, all data points, all parameters", "why_tests_cant": "Continuity holds at all points and for all orders; a test samples a few points for order 3 and misses a factor that is right for order 3 only.", "anchors": ["BayesicFitting/source/SplinesModel.py:basePartial", "BayesicFitting/source/SplinesModel.py:baseDerivative", "BayesicFitting/source/SplinesModel.py:baseParameterUnit", "BayesicFitting/source/LinearModel.py:baseResult"]}
{"id": "C53", "title": "Plain steps stay in the box and above the limit", "statement": "Every point tried by StepEngine, GibbsEngine and RandomEngine has its fitted parameters inside the unit box and leaves the others as they were; every point stored was tried, has a log-likelihood at or above the limit, stored with it; GibbsEngine changes one parameter at a time; the return value counts the parameters moved; the number of likelihoods calculated is bounded. RandomEngine draws each parameter from its own (extended) range of the phantoms.", "quantifier": "all likelihoods, limits, fit indices (with hyper-parameters), prior mappings, random numbers", "why_tests_cant": "The properties hold for every sequence of random numbers; wrong indexing only shows when a parameter in the middle is not fitted.", "anchors": ["BayesicFitting/source/StepEngine.py:execute", "BayesicFitting/source/GibbsEngine.py:execute", "BayesicFitting/source/RandomEngine.py:execute", "BayesicFitting/source/Engine.py:unit2Domain"]}
{"id": "C54", "title": "The knots of a dynamic splines model stay in order and its parameters follow them", "statement": "SplinesDynamicModel, when its knots are more than minDistance apart. grow() that returns True has put one knot strictly between two others, more than minDistance from both; the parameter at that place is multiplied by 0.7 and stands there twice; all other parameters, of this model and of the others in the chain, are what they were. shrink() that returns True has taken away one knot that is not at an end, and one parameter stands in the place of two: 1.4 times their mean weighted with the gaps, or, when that is out of the limits of the prior, something within the limits. vary() that returns True has moved one knot between its neighbours and nothing else. After any number of these the first and last knot are the same, the number of knots is between minKnots and maxKnots, the number of parameters is the number of knots + order - 1, and the basis is made of the present knots. When a call returns False the model is as it was.", "quantifier": "for all orders, knots, parameters, positions in a chain, limits of priors, random numbers and sequences of calls", "why_tests_cant": "a test tries some knots and seeds; what goes wrong needs a prior that cuts, a chain, or a basis that can not be made", "anchors": ["BayesicFitting/source/SplinesDynamicModel.py:grow", "BayesicFitting/source/SplinesDynamicModel.py:shrink", "BayesicFitting/source/SplinesDynamicModel.py:vary", "BayesicFitting/source/SplinesDynamicModel.py:varyAlt", "BayesicFitting/source/SplinesDynamicModel.py:copy", "BayesicFitting/source/Dynamic.py:alterParameters"]}
{"id": "C55", "title": "A polynomial surface is the polynomial its parameter names say", "statement": "PolySurfaceModel(degree): the result is the sum over all terms x^(d-i) y^i, 0 <= i <= d <= degree, of parameter times term, in the order d(d+1)/2+i; the partials are these terms and the derivatives of the result to the parameters; derivative gives the slopes of the result in x and in y; the parameter names list the powers of the terms; the unit of each parameter is the unit of the result divided by that of its term.", "quantifier": "all degrees, data points and parameters", "why_tests_cant": "The triangular bookkeeping of the terms is different for each degree; mistakes with x and y interchanged are invisible to tests with symmetric data or units.", "anchors": ["BayesicFitting/source/PolySurfaceModel.py:basePartial", "BayesicFitting/source/PolySurfaceModel.py:baseDerivative", "BayesicFitting/source/PolySurfaceModel.py:baseName", "BayesicFitting/source/PolySurfaceModel.py:baseParameterUnit", "BayesicFitting/source/LinearModel.py:baseResult"]}
{"id": "C56", "title": "A Kepler orbit obeys the laws of Kepler, and the radial velocity its gradients", "statement": "Kepplers2ndLaw and RadialVelocityModel. The eccentric anomaly, when the iteration converges, solves E - e sin E = M up to 4e-8/(1-e). With the exact one, the distance is that of an ellipse in polar coordinates, r^2 dv/dt is constant, RadialVelocityModel is the derivative of the depth of a star on that orbit, with semi-major axis K P sqrt(1-e^2)/2pi; partial() and derivative() hold the derivatives of the result to eccentricity, amplitude, period, phase, longitude and time. semimajoraxis() yields that axis.", "quantifier": "all eccentricities below 1 in absolute value, all periods but 0, all other parameters and times away from the apastron (cos E > -(1-1e-10)); for the convergence 0 <= e <= 1-1e-7 and any number of data", "why_tests_cant": "The derivative of an implicitly defined anomaly can only be tested at sampled points with finite differences; the convergence criterion is on a step, not on the equation.", "anchors": ["BayesicFitting/source/Kepplers2ndLaw.py:eccentricAnomaly", "BayesicFitting/source/Kepplers2ndLaw.py:radiusAndTrueAnomaly", "BayesicFitting/source/Kepplers2ndLaw.py:drvdpar", "BayesicFitting/source/RadialVelocityModel.py:baseResult", "BayesicFitting/source/RadialVelocityModel.py:basePartial", "BayesicFitting/source/RadialVelocityModel.py:baseDerivative", "BayesicFitting/source/RadialVelocityModel.py:__getattr__"]}
{"id": "C57", "title": "A stellar orbit is the tilted ellipse, with its gradients in polar and rectangular coordinates", "statement": "StellarOrbitModel: the rectangular result is the orbit turned by the longitude of the node, tilted by the inclination and turned by the position angle; toRect and toSpher are each other's inverse; partial() holds the derivatives of both outputs to the seven parameters, and derivative() that to the time, in polar and in rectangular coordinates; the units of the parameters are such that the result does not depend on the choice of units.", "quantifier": "all parameters with |e| < 1 and period other than 0, all times away from the apastron (cos E > -(1-1e-10)); the distance and the rectangular coordinates wherever the projection is not at the star itself, the angle where it does not jump by a turn", "why_tests_cant": "A gradient through an implicit equation, an arctan2 and a projection can be checked only at isolated points by finite differences, which break down near the jump of the angle.", "anchors": ["BayesicFitting/source/StellarOrbitModel.py:baseResult", "BayesicFitting/source/StellarOrbitModel.py:basePartial", "BayesicFitting/source/StellarOrbitModel.py:baseDerivative", "BayesicFitting/source/StellarOrbitModel.py:toRect", "BayesicFitting/source/StellarOrbitModel.py:toSpher", "BayesicFitting/source/StellarOrbitModel.py:baseParameterUnit"]}
{"id": "C58", "title": "Soft-max classification model: outputs, partials and derivative", "statement": "The outputs of a normed SoftMaxModel with several outputs are positive, smaller than one, sum to one and are proportional to the exponentials of the scores ( inner product of the input with the row of parameters of that output, plus its offset ); with one output the result is the logistic function of the score and without normalisation the score itself. A higher score gives a higher output, and adding one vector to all rows or one number to all offsets does not change the normalised outputs. partial() is the derivative of every output to every parameter ( the partials to one parameter sum to zero over the normalised outputs ) and derivative() that to every input. The unit of a parameter is one over that of the input it multiplies.", "quantifier": "for all numbers of inputs and outputs, with and without offset, normed or not, all inputs and parameters", "why_tests_cant": "The tests compare a few points with numerical derivatives within a tolerance, for small numbers of in- and outputs, and never with fixed parameters.", "anchors": ["BayesicFitting/source/SoftMaxModel.py:baseResult", "BayesicFitting/source/SoftMaxModel.py:basePartial", "BayesicFitting/source/SoftMaxModel.py:baseDerivative", "BayesicFitting/source/SoftMaxModel.py:baseParameterUnit", "BayesicFitting/source/NeuralNetUtilities.py:Softmax", "BayesicFitting/source/NeuralNetUtilities.py:Connect", "BayesicFitting/source/NeuralNetUtilities.py:ConnectWithBias"]}
{"id": "C59", "title": "The evidence of a fit is the integral of likelihood times prior", "statement": "The log-likelihood of a fitter is the logarithm of the product of the normal densities of its residuals, with the accuracy of each point times the noise scale as standard deviation and each point counted by its weight. For a linear model with uniform priors and a known noise scale, getLogZ() is the logarithm of the integral of that likelihood times the prior density over all parameters; every fitted parameter contributes the range of its own prior ( or of the limits passed ), kept parameters contribute nothing. getEvidence() is the same in units of log 10. It is an error when the number of (weighted) data does not exceed the number of fitted parameters or when no range is known.", "quantifier": "for all numbers of data and parameters, all designs with a positive definite hessian, all weights, accuracies, noise scales and prior ranges", "why_tests_cant": "The tests compare with tabulated values of a handful of models; an integral over the parameter space in arbitrary dimension is not something a test evaluates.", "anchors": ["BayesicFitting/source/BaseFitter.py:getLogZ", "BayesicFitting/source/BaseFitter.py:getEvidence", "BayesicFitting/source/BaseFitter.py:getLogLikelihood", "BayesicFitting/source/BaseFitter.py:getHessian", "BayesicFitting/source/BaseFitter.py:makeVariance", "BayesicFitting/source/BaseFitter.py:fitprolog"]}
{"id": "C60", "title": "The first walkers of a nested sampler are prior samples at which the likelihood exists", "statement": "The list of parameters a nested sampler fits contains every parameter of the model and every hyperparameter that is not fixed, except those named in keep; parameters that are kept and hyperparameters that are fixed have their given values. Each walker it starts with has a finite likelihood, every fitted parameter is the prior's value of one random number, all from the same try, and nothing else is changed, however many tries it takes. For a dynamic model the number of components is drawn too, stays within its limits, and the number of values and of indices matches it.", "quantifier": "all numbers of parameters and hyperparameters, fixed or free, all keep dictionaries, all sequences of random numbers and failed tries, all likelihood functions, all growths of the model", "why_tests_cant": "Tests start with problems where the first try succeeds and fit all parameters; the retry loop, kept parameters with fixed hyperparameters, and dynamic models behind other models meet only in rare combinations.", "anchors": ["BayesicFitting/source/NestedSampler.py:makeFitlist", "BayesicFitting/source/StartEngine.py:execute"]}
{"id": "C61", "title": "Birth, death and structure engines keep the ensemble consistent and above the likelihood limit", "statement": "BirthEngine.execute either leaves the ensemble as it is and returns 0, or it makes a walker with one component more, of which the new parameters come from their priors, all other parameters and hyperparameters are unchanged and the likelihood is not below the limit; it does the latter exactly when the model can grow and one of at most maxtrials draws passes. DeathEngine.execute does the same with one component less: the components that are left are components of the old walker, each at most once, and nothing else changes. StructureEngine.execute varies the structure at each location once and keeps each variation that passes. The new walker replaces the old one (same id) or is appended with a new id; all other walkers stay as they are; after any sequence of calls each walker's stored likelihood is that of its model and parameters, the lengths of its lists match its model, and ids are distinct.", "quantifier": "all likelihood functions and priors, all random numbers, all numbers of components and limits on it, all positions of the (repeating) dynamic model in a chain, all shared parameters, any number of hyperparameters, all sequences of births and deaths; all parameters of the model are fitted", "why_tests_cant": "The paths depend on random draws and on the likelihood at several tries; a test sees a few of them and does not see which walker of the list was changed.", "anchors": ["BayesicFitting/source/BirthEngine.py:execute", "BayesicFitting/source/DeathEngine.py:execute", "BayesicFitting/source/StructureEngine.py:execute", "BayesicFitting/source/StructureEngine.py:executeOnce", "BayesicFitting/source/Engine.py:setWalker", "BayesicFitting/source/WalkerList.py:setWalker", "BayesicFitting/source/Walker.py:check"]}
{"id": "C62", "title": "B-splines: partition of unity, end points, derivatives", "statement": "For strictly rising knots (at least two) and points from the first to the last knot inclusive, the partials of BSplinesModel are order + nrknots - 1 numbers per point: the Cox-De Boor functions, none negative, adding up to 1, zero away from their knots. So the result lies between the smallest and the largest parameter, and equals the first (last) parameter at the first (last) knot; it is continuous from order 1 on. Points outside raise ValueError. derivative() is the derivative of result() between the first and the last knot (at the inner knots for order 2 and up), and deriv_order k+1 of collmat is the derivative of deriv_order k. Refuted: at the last knot derivative() is 0 whatever the parameters; with a single parameter there is one result for all points and no derivative; a copy loses eps.", "quantifier": "all knots, orders, parameters, points", "why_tests_cant": "A test tries a few points of a few splines; the recursion with its guarded divisions and the repeated end knots go wrong at single points (the last knot does)", "anchors": ["BayesicFitting/source/BSplinesModel.py:basePartial", "BayesicFitting/source/BSplinesModel.py:baseDerivative", "BayesicFitting/source/bspline.py:Bspline", "BayesicFitting/source/splinelab.py:augknt"]}
{"id": "C63", "title": "Sines with an amplitude or frequency that varies: results, partials, slopes and units", "statement": "PolySineAmpModel is a polynomial in y times the cosine plus a polynomial in y times the sine, of a fixed frequency in x; its partials and its derivatives to x and y are those of that function. SineSplineModel has splines for both amplitudes, and SineSplineDriftModel moreover a frequency that drifts as a polynomial; results and partials are those of these functions. A change of the unit of x or y changes the partials as the units of the parameters say (PolySineAmp and SineSpline). Refuted: the name of a PolySineAmpModel gives wrong powers for the sine terms; derivative() of both spline models raises a ValueError whenever their splines have two parameters or more; some parameter units of the drift model are wrong.", "quantifier": "all frequencies, degrees, orders, ascending knots, parameters and points", "why_tests_cant": "Tests compare numeric and analytic partials at a few points; the derivative to x of the spline models, names and units are not among them.", "anchors": ["BayesicFitting/source/PolySineAmpModel.py:basePartial", "BayesicFitting/source/PolySineAmpModel.py:baseDerivative", "BayesicFitting/source/SineSplineModel.py:basePartial", "BayesicFitting/source/SineSplineModel.py:baseDerivative", "BayesicFitting/source/SineSplineDriftModel.py:baseResult", "BayesicFitting/source/SineSplineDriftModel.py:basePartial", "BayesicFitting/source/SineSplineDriftModel.py:baseDerivative"]}
{"id": "C64", "title": "Models made of other models: products, surfaces of splines, pixels, constants", "statement": "ProductModel: the result is the product of the results of its models, each on its own axis with its own stretch of the parameters; if the partials of its models are right, so are all of its partials, and parameter names tell model and index. SurfaceSplinesModel: each of the prod(order + nrknots - 1) columns is a product of one spline function per axis, each combination occurring once, the last axis fastest; on two axes the result is the double sum with the parameters as a matrix. FreeShapeModel: column k is the kernel centered at pixel k for any list of columns; points more than the range of the kernel outside the domain raise ValueError; with a tophat the result is a pixel's parameter, with a once convolved one the line between two parameters. ConstantModel: no partials, the result is the table or the fixed model's. Refuted: units in a product when a model in it is a chain; the name of a product of more than six models; names and units of a surface (axes interchanged, power capped at 3 for all orders); with the default center pixel k of FreeShapeModel runs from k-1 to k, so the last pixel of the domain has result 0; a copied ConstantModel shares its fixed model; a fixed model given to a tabular one changes the derivative only.", "quantifier": "all lists of models with correct partials, all axes, orders, knots, kernels, parameters and points", "why_tests_cant": "Tests use products and surfaces of two models, often the same one, where interchanged indices do not show, and the tests of FreeShapeModel look at its shape, not at which parameter governs which pixel.", "anchors": ["BayesicFitting/source/ProductModel.py:baseResult", "BayesicFitting/source/ProductModel.py:basePartial", "BayesicFitting/source/ProductModel.py:baseParameterUnit", "BayesicFitting/source/SurfaceSplinesModel.py:basePartial", "BayesicFitting/source/SurfaceSplinesModel.py:baseParameterName", "BayesicFitting/source/FreeShapeModel.py:basePartial", "BayesicFitting/source/FreeShapeModel.py:checkDomain", "BayesicFitting/source/ConstantModel.py:baseResult", "BayesicFitting/source/ConstantModel.py:baseDerivative"]}
{"id": "C65", "title": "What iterative fitters hand to a minimiser", "statement": "For MaxLikelihoodFitter subclasses (ScipyFitter, AmoebaFitter) and CurveFitter: the function handed to the minimiser is the weighted sum of squares at all parameters, completed from the fitted ones with the kept ones; its gradient is the derivative of that function to each fitted parameter; for likelihoods the gradient is that of minus the log likelihood; the squares that curve_fit minimises equal the weighted squares of data and normalize rows, and the jacobian is that of the result. After fit(): the returned parameters are those of the model, chisq is that at these parameters, kept parameters have exactly the kept values, parameters not fitted are unchanged and the fit is not worse than its start when the minimiser keeps its contract. (Refuted in the code: Hessian off by a factor two, evaluated at wrong parameters with keep, Gaussian Hessian has the wrong sign and squared weights and raises when the scale is fitted; keep of CurveFitter stays for later fits; par0, limits and bounds of ScipyFitter; default method raises.)", "quantifier": "for all models with correct partials, data, weights, accuracies, kept parameters, minimisers within their contract", "why_tests_cant": "Tests run one optimiser on one data set; a wrong gradient or Hessian only slows convergence and remains unseen.", "anchors": ["BayesicFitting/source/MaxLikelihoodFitter.py:_Chisq", "BayesicFitting/source/MaxLikelihoodFitter.py:_LogL", "BayesicFitting/source/CurveFitter.py:fit", "BayesicFitting/source/ScipyFitter.py:fit", "BayesicFitting/source/AmoebaFitter.py:fit", "BayesicFitting/source/GaussErrorDistribution.py:hessianLogL"]}
{"id": "C66", "title": "Logarithm of the factorial", "statement": "logFactorial of every whole number that is not negative is the natural logarithm of its factorial: to 1e-13 below 100 (the table) and to 5e-9 from 100 on (the asymptotic formula, without bound on the number); lists and arrays are truncated and answered item by item; the answers increase, also where table and formula meet.", "quantifier": "all natural numbers, all lists of non-negative numbers (more or less than one)", "why_tests_cant": "a hundred constants typed in by hand and an infinite range for the formula: tests sample a few numbers and compare with another approximation", "anchors": ["BayesicFitting/source/LogFactorial.py:logFactorial"]}
{"id": "C67", "title": "A fit within limits puts transgressors at their limit and fits the rest", "statement": "limitsFit of any fitter: when the fit leaves all fitted parameters within the limits of their priors, the result is that of fit; otherwise every fitted parameter that was beyond a limit ends exactly at that limit, kept parameters keep their value, and the list of fitted parameters of the fitter is what it was. For a linear model and Fitter, with one transgressor, the result minimises the weighted squares among all parameters that respect the limit.", "quantifier": "all fitters that keep what is to be kept, all models and chains of priors, all dictionaries of kept parameters, all data and weights", "why_tests_cant": "the optimality claim quantifies over all competing parameters; whether limits are respected depends on the interplay of two fits and three dictionaries", "anchors": ["BayesicFitting/source/BaseFitter.py:limitsFit", "BayesicFitting/source/BaseFitter.py:keepFixed", "BayesicFitting/source/Model.py:getPrior"]}
{"id": "C68", "title": "Confidence regions", "statement": "MonteCarlo.getError and a fitter's monteCarloError return at each point the standard deviation of the results at the parameters tried, which get deviations with the given covariance in the fitted parameters and none in the others; for a model linear in its parameters and draws of unit covariance the error is exactly the propagated covariance; it is zero where the result does not depend on the fitted parameters. SampleList.average and monteCarloError give the weighted mean and standard deviation over the samples.", "quantifier": "all models, covariance matrices, fit indices, draws, numbers of cycles, sample lists with normalised weights", "why_tests_cant": "random draws: a test sees one seed and can only compare within noise; the stale cached error shows only for two different inputs of equal length", "anchors": ["BayesicFitting/source/MonteCarlo.py:getError", "BayesicFitting/source/MonteCarlo.py:randomVariant", "BayesicFitting/source/BaseFitter.py:monteCarloError", "BayesicFitting/source/SampleList.py:average", "BayesicFitting/source/SampleList.py:monteCarloError"]}
{"id": "C69", "title": "Likelihoods of single data are normalised densities with the documented width", "statement": "For an error distribution without weights, for a model that is not cyclic, exp( logLdata ) of one data point, seen as a function of that datum, is the documented probability density centred on the value of the model: Gauss, Laplace, Cauchy, uniform, exponential power and their mixtures integrate to 1 over all data, Poisson sums to 1 over all counts and has the value of the model as its mean, Bernoulli sums to 1 over its two outcomes. toSigma( scale ) is the standard deviation of that density.", "quantifier": "all models, parameters, scales > 0, powers > 0, fractions between 0 and 1, with a noise scale or with accuracies", "why_tests_cant": "An integral over all possible data is not something a test computes; a wrong normalisation only shifts the evidence", "anchors": ["BayesicFitting/source/GaussErrorDistribution.py:logLdata", "BayesicFitting/source/LaplaceErrorDistribution.py:logLdata", "BayesicFitting/source/CauchyErrorDistribution.py:logLdata", "BayesicFitting/source/UniformErrorDistribution.py:logLdata", "BayesicFitting/source/ExponentialErrorDistribution.py:logLdata", "BayesicFitting/source/PoissonErrorDistribution.py:logLdata", "BayesicFitting/source/BernoulliErrorDistribution.py:logLdata", "BayesicFitting/source/MixedErrorDistribution.py:logLdata", "BayesicFitting/source/LaplaceErrorDistribution.py:toSigma", "BayesicFitting/source/UniformErrorDistribution.py:toSigma", "BayesicFitting/source/ExponentialErrorDistribution.py:toSigma"]}
{"id": "C70", "title": "The likelihood of data with errors in x and y", "statement": "For a Gauss2dErrorDistribution each item of logLdata is its weight times the logarithm of a two-dimensional normal density of the residuals in y and x, with the covariance matrix of the data point plus the square of the noise scale on its diagonal (up to the constant found missing); the items of nextPartialData for a model parameter or a target add up to the derivative of the log-likelihood, those for the scale are the derivatives item by item; the alternative calculation gives the sum of the items.", "quantifier": "all models with one input, data, weights, covariances or accuracies, parameters, targets and scales for which the matrix is positive definite", "why_tests_cant": "The normalisation constant does not influence the optimum, and the derivative is compared with numerical ones for a few cases only", "anchors": ["BayesicFitting/source/Gauss2dErrorDistribution.py:logLdata", "BayesicFitting/source/Gauss2dErrorDistribution.py:nextPartialData", "BayesicFitting/source/Gauss2dErrorDistribution.py:updateDeterminant", "BayesicFitting/source/Gauss2dErrorDistribution.py:logLikelihood_alt"]}
{"id": "C71", "title": "The noise scale estimated from the residuals is the one of maximum likelihood", "statement": "For given model parameters, errdis.getScale( problem, allpars ) returns the noise scale for which errdis.logLikelihood is highest, for Gauss, Laplace, Uniform, Cauchy and Exponential error distributions, with or without weights. MaxLikelihoodFitter.getLogLikelihood( autoscale=True ) returns the log-likelihood at that scale.", "quantifier": "all data, weights that are not negative, models and parameters with at least one weighted residual that is not 0; all other positive scales", "why_tests_cant": "The estimates look plausible for every data set and are of the right order: only a comparison with all other scales shows that the exponential one misses a factor power^(1/power), that the Cauchy one solves another equation, and that the uniform one sits at the edge where the likelihood is 0.", "anchors": ["BayesicFitting/source/ErrorDistribution.py:getGaussianScale", "BayesicFitting/source/LaplaceErrorDistribution.py:getScale", "BayesicFitting/source/UniformErrorDistribution.py:getScale", "BayesicFitting/source/ExponentialErrorDistribution.py:getScale", "BayesicFitting/source/CauchyErrorDistribution.py:getScale", "BayesicFitting/source/MaxLikelihoodFitter.py:getLogLikelihood"]}
{"id": "C72", "title": "Partials and derivatives of compound models with several inputs and outputs", "statement": "For models with any numbers of inputs and outputs the partials and derivatives of G | H follow from those of G and H by the chain rule, and those of F + G, F - G, F * G and F / G by the rules for sums, products and quotients. Numerical partials and derivatives are available for all of them.", "quantifier": "all numbers of data, inputs, intermediate values, outputs and parameters, and all values", "why_tests_cant": "The number of combinations of dimensions is large and numpy broadcasting hides wrong axes: the derivative of a product is silently wrong only when there are as many data as inputs.", "anchors": ["BayesicFitting/source/Model.py:selectPipe", "BayesicFitting/source/Model.py:_recursivePartial", "BayesicFitting/source/Model.py:_recursiveDerivative", "BayesicFitting/source/FixedModel.py:numPartial", "BayesicFitting/source/FixedModel.py:numDerivative"]}
{"id": "C73", "title": "Problems with more than one output", "statement": "In a problem with ndout outputs per datum the residuals, the partials and the weights are in the same order: item a * ndout + b belongs to output b of datum a. One weight per datum counts for all its outputs, and weights may be given as array_like, the accuracy as a float. The estimate of the noise scale is the one with the highest likelihood.", "quantifier": "all numbers of data, outputs and parameters, all values and all periods of the outputs", "why_tests_cant": "A wrong order shows only with residuals, weights and partials that all differ; tests look at a few sizes, and the estimate of the scale looks plausible when it is a factor sqrt( ndout ) off.", "anchors": ["BayesicFitting/source/MultipleOutputProblem.py:expandFlat", "BayesicFitting/source/MultipleOutputProblem.py:partial", "BayesicFitting/source/MultipleOutputProblem.py:residuals", "BayesicFitting/source/Problem.py:cycor2", "BayesicFitting/source/Problem.py:__getattr__"]}
{"id": "C74", "title": "Attributes of a problem after changes", "statement": "After any sequence of changes to the data, weights, accuracy and model of a problem, and of copies and enquiries in between, ndata is the number of data, sumweight the sum of the weights (or the number of data), the variance the square of the accuracy, and residuals are corrected for the period of the model.", "quantifier": "all sequences of operations of any length and all values", "why_tests_cant": "Values that are kept after the first enquiry are wrong only after particular sequences of enquiries and changes; tests make a problem and use it once.", "anchors": ["BayesicFitting/source/Problem.py:__init__", "BayesicFitting/source/Problem.py:__setattr__", "BayesicFitting/source/Problem.py:__getattr__", "BayesicFitting/source/Problem.py:setAccuracy", "BayesicFitting/source/Problem.py:copy"]}
{"id": "C75", "title": "Partials of models around a function of the user", "statement": "A UserModel without partials has numeric ones, that are close to the real ones; in compound models they follow the rules for sums, differences, products and quotients, also when the compound is made in place. With fixed parameters the partials to the remaining parameters are returned. The same holds for AstropyModel, which has a derivative too.", "quantifier": "all functions, numbers of parameters, parameters, steps and heaps of models", "why_tests_cant": "Numeric partials are a method bound to one object, which works in a simple model and in copies; tests do not go through all ways of making compound models.", "anchors": ["BayesicFitting/source/UserModel.py:basePartial", "BayesicFitting/source/UserModel.py:setMethod", "BayesicFitting/source/UserModel.py:copy", "BayesicFitting/source/AstropyModel.py:basePartial", "BayesicFitting/source/AstropyModel.py:baseDerivative", "BayesicFitting/source/Model.py:_recursivePartial", "BayesicFitting/source/Model.py:appendModel"]}
{"id": "C76", "title": "Probability of a model by an arbiter", "statement": "The log likelihood of a model is the natural logarithm of the evidence that the arbiter (a fitter or NestedSampler) finds for the model, data and weights of the problem, with the keywords given for it; parameters and scale are those found by the arbiter. When the evidence cannot be found the value is the lowest possible. A copy of the distribution has the same values.", "quantifier": "all arbiters, models, weights, keywords, limits and outcomes of the arbiter", "why_tests_cant": "All values look plausible; that weights, keywords or the model are not used, is seen only when evidences with and without are compared.", "anchors": ["BayesicFitting/source/ModelDistribution.py:logLikelihood_alt", "BayesicFitting/source/ModelDistribution.py:copy", "BayesicFitting/source/NestedSampler.py:__getattr__"]}
{"id": "C77", "title": "Strengths of football teams, their partials and priors", "statement": "A FootballModel gives for each match the strengths of the documented formulas; parameters that are left out by a lower complexity have no effect, as if they had their default values. The partials are the derivatives of both strengths to all parameters of all teams, or to those not fixed. The priors are the same for all teams, and those of other models in a compound are left alone.", "quantifier": "all complexities, numbers of teams, pairs of teams and parameters within their limits", "why_tests_cant": "Sixty hand derived expressions for the partials, each used for two teams only; a test with a few parameter values at the defaults sees few of them.", "anchors": ["BayesicFitting/source/FootballModel.py:baseResult", "BayesicFitting/source/FootballModel.py:basePartial", "BayesicFitting/source/FootballModel.py:part3", "BayesicFitting/source/FootballModel.py:part4", "BayesicFitting/source/FootballModel.py:part5", "BayesicFitting/source/FootballModel.py:getPrior"]}
{"id": "C78", "title": "The Voigt profile", "statement": "A VoigtModel is the convolution of a Gauss and a Lorentz profile with the given widths around the given centre, scaled so that the amplitude is its value at the centre; it is symmetric, and equal to the GaussModel when the Lorentz width is 0. Its partials are the derivatives to the four parameters (or to those not fixed), and its derivative is the slope.", "quantifier": "all x, amplitudes, centres, Gauss widths > 0 and Lorentz widths; the convolution for Lorentz widths > 0", "why_tests_cant": "The profile comes from a complex function in a library; a wrong factor in a width or in one of the complex chain rules changes the shape a little, and no closed form is at hand for comparison.", "anchors": ["BayesicFitting/source/VoigtModel.py:baseResult", "BayesicFitting/source/VoigtModel.py:basePartial", "BayesicFitting/source/VoigtModel.py:baseDerivative"]}
{"id": "C79", "title": "The number of components of a dynamic model stays in range and follows the growth prior", "statement": "A dynamic model (RepeatingModel, HarmonicDynamicModel, PolynomialDynamicModel) can be made for exactly the sizes in its range min..max. After any series of births and deaths its size is in the range, and its range and growth prior are unchanged. A copy equals the original. With a highest size, a birth has chance 1-(c-min)/N and a death (c-min)/N, where c is the number of components and N the number of sizes. Without one they have chance exp(-c/2) and 1-exp(-c/2). The weights over the sizes that births and deaths keep are given in closed form. Refuted: a uniform growth prior gives binomial, not equal, weights, shifted by one for polynomials. A repeating or harmonic model that is offered at its lowest size never starts there. An harmonic model of order 0, or a repeating model that is not dynamic, cannot be copied.", "quantifier": "All sizes, ranges, random numbers and series of births and deaths.", "why_tests_cant": "A test sees a few random walks; the stationary weights are a statement about the limit of infinitely many.", "anchors": ["BayesicFitting/source/Dynamic.py:setGrowPrior", "BayesicFitting/source/RepeatingModel.py:copy", "BayesicFitting/source/HarmonicDynamicModel.py:copy", "BayesicFitting/source/PolynomialDynamicModel.py:__getattr__", "BayesicFitting/source/BirthEngine.py:execute", "BayesicFitting/source/DeathEngine.py:execute", "BayesicFitting/source/StartEngine.py:execute"]}
{"id": "C80", "title": "Partials, priors and names of a repeating model", "statement": "The partials of a RepeatingModel are its partial derivatives for every parameter: those of the first component, of every later component, and the ones all components share. Its derivative is the derivative to x. Every parameter belongs to exactly one parameter of the model inside and gets the prior of that one. With shared parameters the names are distinct. Refuted: without shared parameters asking for a name raises TypeError; with no components a selection of partials is ignored; a compound model inside cannot be evaluated.", "quantifier": "All models inside with exact partials, all sets of shared parameters, numbers of components and parameter values.", "why_tests_cant": "Tests compare with numerical derivatives for a few layouts; the bookkeeping of shared columns has to hold for all layouts.", "anchors": ["BayesicFitting/source/RepeatingModel.py:basePartial", "BayesicFitting/source/RepeatingModel.py:baseDerivative", "BayesicFitting/source/RepeatingModel.py:par2model", "BayesicFitting/source/RepeatingModel.py:baseParameterName"]}
{"id": "C81", "title": "Averages over samples, plain and circular", "statement": "The weighted average of samples is the value with the least weighted squared distance to them and the standard deviation is the root mean square of what is left; for a circular quantity the average lies within the limits, no value agrees better with the samples (weighted cosine of the distance), it does not depend on whole periods in the samples and moves along when all samples are moved, and the deviation is that of the distances of at most half a period. A sample list with normalized weights reports these averages and deviations for its parameters, hyper parameters and scale, whenever it is asked.", "quantifier": "all weighted lists of samples, all limits, all orders in which attributes are asked", "why_tests_cant": "A test averages a few lists; that no value agrees better, and that every order of asking gives an answer, are statements over all reals and all histories.", "anchors": ["BayesicFitting/source/Tools.py:average", "BayesicFitting/source/SampleList.py:getParameters", "BayesicFitting/source/SampleList.py:getHypars", "BayesicFitting/source/SampleList.py:averstd", "BayesicFitting/source/SampleList.py:__getattr__"]}
{"id": "C82", "title": "Crossing legs are found and untied, and nearest neighbours visited", "statement": "For a travelling salesman in the plane, LoopEngine finds the first leg of the tour that crosses the leg it has drawn, and the tour in which both legs are untied is not longer. NearEngine finds the nearest neighbour of the city it has drawn, for every kind of distance, remembers it rightly, and proposes a tour in which the two follow each other.", "quantifier": "all tours, all positions of the cities, all draws, all histories of the engine", "why_tests_cant": "A test runs a few tours and sees that they become shorter; a crossing that is missed or seen where there is none goes unnoticed as the proposals are accepted or rejected on likelihood.", "anchors": ["BayesicFitting/source/LoopEngine.py:executeOnce", "BayesicFitting/source/NearEngine.py:executeOnce", "BayesicFitting/source/Tools.py:isBetween", "BayesicFitting/source/SalesmanProblem.py:spherical", "BayesicFitting/source/SalesmanProblem.py:tabulated"]}
{"id": "C83", "title": "Mixtures of any two distributions and Bernoulli with classes", "statement": "MixedErrorDistribution gives each part the model parameters followed by its own hyper-parameters, for every number of hyper-parameters of the parts; the log-likelihood of a point is log( f L1 + ( 1 - f ) L2 ), and that of one part alone when the fraction is at or beyond 0 or 1; partialLogL is its derivative for the model parameters, the fraction and every hyper-parameter. BernoulliErrorDistribution with several outputs takes log of the output of the class of the point, gives zero likelihood to a point of no class, agrees with the one-output case, and its partialLogL is the derivative.", "quantifier": "all parts, numbers of hyper-parameters, parameters, fractions, data, classes and outputs", "why_tests_cant": "tests mix two distributions with one scale each", "anchors": ["BayesicFitting/source/MixedErrorDistribution.py:logLdata", "BayesicFitting/source/MixedErrorDistribution.py:nextPartialData", "BayesicFitting/source/BernoulliErrorDistribution.py:logLdata", "BayesicFitting/source/BernoulliErrorDistribution.py:nextPartialData", "BayesicFitting/source/ErrorDistribution.py:partialLogL"]}
{"id": "C84", "title": "The spline blobs of BasicSplinesModel join smoothly", "statement": "For every list of increasing knots, every order and every border for which the constructor of BasicSplinesModel returns: the result of the model is, for all parameters and all x (knots included), order-1 times differentiable and its (order-1)-th derivative is continuous, its first derivative is what derivative() returns, and away from the inner knots it is differentiable to any order; with periodic borders value and derivatives up to order-1 at the last knot equal those at the first. The result is the sum of the parameters times the columns of partial(); a list of parameters selects columns; a column is zero outside the support of its blob; the columns add up to one at as many points as there are parameters, running from the first to the last knot. A periodic model with fewer than order+2 knots cannot be constructed (IndexError) and neither can one with the documented easy borders (border=2).", "quantifier": "all knots, orders, borders, parameters, x", "why_tests_cant": "Continuity of derivatives at the knots holds for a continuum of knots and parameters; samples of x never hit the joins, and the linear systems are solved per blob.", "anchors": ["BayesicFitting/source/BasicSplinesModel.py:makeBaseBasis", "BayesicFitting/source/BasicSplinesModel.py:makePeriodicBasis", "BayesicFitting/source/BasicSplinesModel.py:findParameters", "BayesicFitting/source/BasicSplinesModel.py:normalizeBasis", "BayesicFitting/source/BasicSplinesModel.py:baseResult", "BayesicFitting/source/BasicSplinesModel.py:basePartial", "BayesicFitting/source/BasicSplinesModel.py:baseDerivative", "BayesicFitting/source/BasicSplinesModel.py:makeKnotIndices"]}
{"id": "C85", "title": "A NestedSampler and a NestedSolver are put together from consistent parts", "statement": "A NestedSampler or NestedSolver that is constructed has the problem, the error distribution (named without regard to case, with the given scale, power and limits) and the engines (in the given order, new ones with the next random seeds) that were asked for, or the defaults of its problem. After any sequence of setEngines, setErrorDistribution, sample, and settings of verbose, copymode and bestUpdate, every engine refers to the present walkers, phantoms and verbosity, and to the present distribution provided setErrorDistribution was not called after the last setEngines. Unknown names raise. Exceptions found: a distribution set on an existing sampler is not seen by the engines; limits given with a distribution object are ignored; a fitter given as bestBoost is not used; NestedSolver raises TypeError for every distribution and ValueError for a dynamic ordering problem with default engines; problem=\"evidence\" raises TypeError; data given along with a problem object replace those of the problem against the documentation.", "quantifier": "all problems, names, instances, sequences of calls", "why_tests_cant": "The inconsistencies arise in particular sequences of calls and combinations of arguments, of which there is no end.", "anchors": ["BayesicFitting/source/NestedSampler.py:__init__", "BayesicFitting/source/NestedSampler.py:setProblem", "BayesicFitting/source/NestedSampler.py:setErrorDistribution", "BayesicFitting/source/NestedSampler.py:setEngines", "BayesicFitting/source/NestedSampler.py:__setattr__", "BayesicFitting/source/NestedSampler.py:initSample", "BayesicFitting/source/NestedSampler.py:setInitialEngine", "BayesicFitting/source/NestedSolver.py:__init__", "BayesicFitting/source/NestedSolver.py:setErrorDistribution", "BayesicFitting/source/NestedSolver.py:setEngines", "BayesicFitting/source/ClassicProblem.py:myEngines", "BayesicFitting/source/EvidenceProblem.py:__init__", "BayesicFitting/source/OrderProblem.py:myEngines"]}
{"id": "C86", "title": "Boosting the best walker never makes it worse, and keeps it consistent", "statement": "When a new walker of a sampler with bestBoost is better than all phantoms, a fitter starts from its model parameters and the walker is replaced by the fitted parameters only if these have a higher likelihood; the stored likelihood remains that of the stored parameters, other walkers are not touched, a failing fitter changes nothing. With one hyper-parameter the scale comes from the fitter when it is to be found, else it stays. Exceptions found: without hyper-parameters the fitter starts from an empty list; with two or more the parameter list becomes too short; parameters that are kept fixed are changed too; an empty list of phantoms raises IndexError.", "quantifier": "all fitters, likelihoods, walkers, phantom lists, numbers of hyper-parameters", "why_tests_cant": "It depends on the state of the phantoms, the number of hyper-parameters and the outcome of a fit; default runs never boost.", "anchors": ["BayesicFitting/source/Engine.py:doBoost", "BayesicFitting/source/Engine.py:bestBoost", "BayesicFitting/source/Engine.py:setWalker", "BayesicFitting/source/PhantomCollection.py:getList"]}
{"id": "C87", "title": "Averaged knots, knots for interpolation, collocation matrix", "statement": "splinelab.aveknt gives the averages of all runs of k successive items; aptknt gives, for non-decreasing sites, min(order+1,n) copies of the first and last site with the averages of inner sites between, never decreasing; for different sites these knots satisfy the condition for interpolation (each site inside the support of its own spline); knt2mlt counts the equal items before; spcol gives in row i the derivatives, of the order of that count, of all splines at site i. Deviations: integer items give truncated averages, order 0 always raises, repeated sites at the end go undetected, and the matrix of sites with their own knots always has a last row of zeros.", "quantifier": "all lists of items and sites, all orders and window lengths", "why_tests_cant": "infinitely many lists of sites and orders; the conditions are inequalities between all sites and knots", "anchors": ["BayesicFitting/source/splinelab.py:aveknt", "BayesicFitting/source/splinelab.py:aptknt", "BayesicFitting/source/splinelab.py:knt2mlt", "BayesicFitting/source/splinelab.py:spcol"]}
{"id": "C88", "title": "Exploring walkers; the phantom sampler keeps its ensemble", "statement": "Explorer.exploreWalker makes passes over all selected engines until enough moves or passes are made, always ends, leaves other walkers alone (or only appends), and returns only when the explored walker is not below the limit. PhantomSampler iterations remove the worst walkers, append new ones and trim back to exactly the initial ensemble size, never touching the lowest survivors nor the newest; the limit never decreases and no walker is below it. Deviations: UnboundLocalError without due engines or parameters, miscounted calls and unforgotten errors with threads, failure for ensemble*step < 100, endless loop with in-place (order) engines.", "quantifier": "all walkers, engines, permutations, random draws, numbers of iterations", "why_tests_cant": "properties of all executions with arbitrary engines and random draws", "anchors": ["BayesicFitting/source/Explorer.py:exploreWalker", "BayesicFitting/source/Explorer.py:explore", "BayesicFitting/source/Explorer.py:selEngines", "BayesicFitting/source/PhantomSampler.py:updateWalkers", "BayesicFitting/source/PhantomSampler.py:__init__"]}
{"id": "C89", "title": "Numerical derivatives, the test of partials, and whether parameters have limits", "statement": "The numerical partials of a model, its numerical derivative, the numerical partials of a likelihood and of a prior are central differences at the given parameters (which are left as they were), with the step of the parameter concerned; they are exact for what is quadratic and off by at most M h^2/6 when the third derivative is at most M (h half the total step). testPartial returns 0 if and only if no derivative or partial deviates by more than 0.001 max(|a+b|,1). hasLimits without indices is true if and only if all models with parameters have priors that all have limits; with an array of increasing indices if and only if the parameters indicated have. Deviations found: with a selection of parameters the partials come in the wrong columns with the wrong steps; the number testPartial returns is multiplied by the number of points; hasLimits overlooks indices that are not in order and parameters that share a prior, raises for a plain list, and looks up a hyper-parameter among the model priors.", "quantifier": "all functions with bounded third derivative, all parameters, steps, selections of parameters, chains of models and indices", "why_tests_cant": "An accuracy bound over all functions cannot be sampled; the faults are in combinations of arguments that tests do not make.", "anchors": ["BayesicFitting/source/Tools.py:makeNext", "BayesicFitting/source/Model.py:strictNumericPartial", "BayesicFitting/source/Model.py:strictNumericDerivative", "BayesicFitting/source/Model.py:testPartial", "BayesicFitting/source/ErrorDistribution.py:numPartialLogL", "BayesicFitting/source/Prior.py:numPartialDomain2Unit", "BayesicFitting/source/Prior.py:numPartialLog", "BayesicFitting/source/BaseModel.py:hasLimits", "BayesicFitting/source/Model.py:hasLimits"]}
{"id": "C90", "title": "The unit box of an engine, copies of phantoms, and the consistency check", "statement": "Without indices, domain2Unit and unit2Domain of an engine map item i by the prior of parameter i and the remaining items by the hyper-parameters counted from the end; they are each other's inverse when those of the priors are. The box an engine samples in (getUnitMinmax, getUnitRange) contains the unit coordinates of all phantoms and touches one on every side; with too few phantoms it is [0,1]. In copymode 1 each of the worst walkers becomes a copy of a phantom above the limit, with its own identity and start, the others stay; every phantom of a dynamic collection has exactly one number. The check of a walker passes if and only if the lengths agree, the first hyper-parameter is not negative, the likelihood is the one calculated anew and the fitted parameters are within limits. Deviations found: the copying never ends when no phantom is above the limit; the check, which is made after each exploration without moves, always raises for problems with nuisance parameters or without a model; it only looks at the sign of the first hyper-parameter.", "quantifier": "all priors with increasing maps, phantoms, random draws, ensembles, numbers of (hyper-)parameters", "why_tests_cant": "The box depends on the set of phantoms and the draws; endless loops and checks that always raise occur in configurations tests do not run.", "anchors": ["BayesicFitting/source/Engine.py:domain2Unit", "BayesicFitting/source/Engine.py:unit2Domain", "BayesicFitting/source/Engine.py:makeIndex", "BayesicFitting/source/Engine.py:getUnitMinmax", "BayesicFitting/source/Engine.py:getUnitRange", "BayesicFitting/source/NestedSampler.py:copyWalkerFromPhantoms", "BayesicFitting/source/NestedSampler.py:copyWalkerFromDynamicPhantoms", "BayesicFitting/source/WalkerList.py:copy", "BayesicFitting/source/Walker.py:check", "BayesicFitting/source/Explorer.py:logLcheck"]}
{"id": "C91", "title": "Checked attributes, nice numbers and the formatter", "statement": "setAttribute, setListOfAttributes, setSingleAttributes and setNoneAttributes store exactly the attributes whose type matches the dictionary (lists for lists, singles for singles, None for None) and raise TypeError otherwise, leaving unlisted names to the caller. nicenumber(x) of a non-zero number is a whole number between 1 and 10 times a power of ten, with the sign of x, in absolute value not larger than x and nearer to it than that power of ten; of zero it is zero. formatter prints the items of an array in order with balanced brackets; with max=None all of them; with max=m the first m and the last tail of a row; a row of numbers is broken after every (linelength-indent)/width items, so that no line is longer than linelength; defaults set with formatter_init hold where no argument is given.", "quantifier": "for all dictionaries, names, values, numbers, arrays, maxima, tails, widths, indents and line lengths", "why_tests_cant": "tests print a few arrays and look at them; they do not cover all shapes, all combinations of max and tail, or all types of attributes", "anchors": ["BayesicFitting/source/Tools.py:isInstance", "BayesicFitting/source/Tools.py:isList", "BayesicFitting/source/Tools.py:setAttribute", "BayesicFitting/source/Tools.py:setNoneAttributes", "BayesicFitting/source/Tools.py:setListOfAttributes", "BayesicFitting/source/Tools.py:setSingleAttributes", "BayesicFitting/source/Tools.py:nicenumber", "BayesicFitting/source/Formatter.py:formatter_init", "BayesicFitting/source/Formatter.py:formatter", "BayesicFitting/source/Formatter.py:recursive_format"]}
{"id": "C92", "title": "What a sampler reports: samples of walkers, attributes, iterations, progress, success rates and journeys", "statement": "A sample made from a walker holds all its parameters in order, split in parameters of the model, nuisance parameters and hyperparameters, and the walker answers the same parts. evidence is the 10-log of Z, precision that of its error; an attribute that does not exist is an AttributeError. getMaxIter bounds the iterations: sampling goes on only below it and stops only at or beyond it, it is the present iteration once the evidence has converged, and maxIterations is obeyed. Plots are made as asked by plot. With verbose=1 a mark is printed each repiter iterations with a new line after 50, with 2 a line each repiter, with more a line always; the heading says which hyperparameters are unknown. successRate is the percentage of successes among the trials since the last time it was asked. A journey is at least as long as the distance covered. stepOut returns a point at or below the likelihood, found by doubling, or the limit.", "quantifier": "for all walkers, problems, states of the sampler, plot arguments, fit lists, numbers of iterations, sequences of reported events, steps and likelihood functions", "why_tests_cant": "the tests run a sampler and print; they do not check the reports, nor the sampler with a maximum below 100 iterations or with only one of two hyperparameters unknown", "anchors": ["BayesicFitting/source/Walker.py:toSample", "BayesicFitting/source/Walker.py:__getattr__", "BayesicFitting/source/Sample.py:__getattr__", "BayesicFitting/source/NestedSampler.py:getMaxIter", "BayesicFitting/source/NestedSampler.py:nextIteration", "BayesicFitting/source/NestedSampler.py:__getattr__", "BayesicFitting/source/NestedSampler.py:doIterPlot", "BayesicFitting/source/NestedSampler.py:doLastPlot", "BayesicFitting/source/NestedSampler.py:initReport", "BayesicFitting/source/NestedSampler.py:iterReport", "BayesicFitting/source/Engine.py:successRate", "BayesicFitting/source/Engine.py:startJourney", "BayesicFitting/source/Engine.py:calcJourney", "BayesicFitting/source/Engine.py:reportJourney", "BayesicFitting/source/ChordEngine.py:stepOut"]}
{"id": "C93", "title": "Text of a model", "statement": "str() of a compound model shows every parameter of every constituent as p_k with k its index in the parameter list of the whole model, everything else as in the text of the constituent, brackets in curly brackets with deeper indentation; parameters that are fixed are replaced by their value and the remaining ones renumbered to their place in the parameter list of that model. The first and second constituents are joined by their operation. shortName gives the leading letters of every constituent joined by the operations.", "quantifier": "For all texts of constituents, all chains and nestings of brackets, all sets of fixed parameters, all numbers of parameters.", "why_tests_cant": "The renumbering uses regular expressions whose matches depend on decimal prefixes (p_1 in p_10) and on the character after a parameter; tests print a few small models and nobody compares the numbers.", "anchors": ["BayesicFitting/source/Model.py:_toString", "BayesicFitting/source/FixedModel.py:_toString", "BayesicFitting/source/Model.py:shortName", "BayesicFitting/source/BaseModel.py:shortName", "BayesicFitting/source/PolynomialModel.py:baseName"]}
{"id": "C94", "title": "Pictures of fits, samples and movies", "statement": "plotFit shows the data, the residuals (data minus fit), the curve on a grid of ten times as many points from the lowest to the highest x, and an error band; it saves when a filename is given and else shows. plotSampleList draws npt points in all when the weights add to 1, each sample having its share within one point, all inside the x-range; all data and the fit are inside the limits. SampleMovie shows the samples one by one, each frame with all earlier samples, until one is below 1 percent of the best. It should leave the data and the plotting backend as they were.", "quantifier": "all data, fits, models, sample lists with any weights, limits, problems", "why_tests_cant": "pictures are checked by eye; the error with ylim, the shift of the data by 9 and the lost backend appear only for certain arguments or on the second call", "anchors": ["BayesicFitting/source/Plotter.py:plotFit", "BayesicFitting/source/Plotter.py:plotSampleList", "BayesicFitting/source/SampleMovie.py:SampleMovie.__init__"]}
{"id": "C95", "title": "Dynamic and modifiable compound models", "statement": "A compound model is dynamic when it contains a dynamic model, and modifiable when it contains a modifiable one, whatever the order and the brackets; then the default engines include birth and death, or struct, they act upon the model that can change, at the offset of its parameters, and every walker has a model of its own. There is never more than one dynamic model in a compound model. An EvidenceProblem accepts a model that is dynamic or modifiable and then has an engine.", "quantifier": "all chains of models of any class, nested brackets included, and all orders of appending", "why_tests_cant": "tests use one dynamic model in front; the order and the nesting of models are endless", "anchors": ["BayesicFitting/source/Model.py:Model.isDynamic", "BayesicFitting/source/BaseModel.py:BaseModel.isModifiable", "BayesicFitting/source/Model.py:Model.appendModel", "BayesicFitting/source/ClassicProblem.py:ClassicProblem.myEngines", "BayesicFitting/source/EvidenceProblem.py:EvidenceProblem.__init__", "BayesicFitting/source/BirthEngine.py:BirthEngine.execute", "BayesicFitting/source/StructureEngine.py:StructureEngine.executeOnce"]}
{"id": "C96", "title": "Units of parameters", "statement": "getParameterUnit gives each parameter the unit the formula of the model asks for: when x and y are expressed in other units and each parameter is converted by its unit, the model gives the same result, converted by the unit of y (GaussModel, LorentzModel, VoigtModel, LogisticModel, ArctanModel, ExpModel, KernelModel with any kernel, PolynomialModel, PadeModel counted over all its parameters, HarmonicModel, SineAmpModel, SineModel with and without phase, SineDriftModel, EtalonModel, EtalonDriftModel). A sum of models, each with its units set, has consistent units too, an index out of range is an IndexError, and getIntegralUnit is the unit of the integral over x. As coded the claim fails for PowerModel, PowerLawModel (amplitude), PseudoVoigtModel (balance), ChebyshevPolynomialModel, for models with a fixed parameter before the one asked for (so for any PadeModel as constructed), for the later models of a chain when the units are set on the compound, and for CombiModel, which does not hand its units to its inner model.", "quantifier": "all positive unit conversions, all x, all parameters (with non-zero width where the model divides by it), all degrees, orders, kernels and chains", "why_tests_cant": "a unit test checks the unit of some parameter against the value the author wrote down; whether the unit is that of the formula for all conversions and parameters is a statement about a continuum of them", "anchors": ["BayesicFitting/source/BaseModel.py:getParameterUnit", "BayesicFitting/source/Model.py:getParameterUnit", "BayesicFitting/source/Model.py:getIntegralUnit", "BayesicFitting/source/GaussModel.py:baseParameterUnit", "BayesicFitting/source/PadeModel.py:baseParameterUnit", "BayesicFitting/source/PowerLawModel.py:baseParameterUnit", "BayesicFitting/source/PseudoVoigtModel.py:baseParameterUnit", "BayesicFitting/source/SineModel.py:baseParameterUnit", "BayesicFitting/source/CombiModel.py:baseParameterUnit", "BayesicFitting/source/RepeatingModel.py:baseParameterUnit"]}
{"id": "C97", "title": "Shapes of two-dimensional kernel models", "statement": "Kernel2dModel takes its shape from the first letter of a name (e: elliptic, r: rotated, in either case; anything else circular) or from a number (2, 3; all others circular); only the empty string is an error. The model that is constructed, with any set of fixed parameters, has as many parameters and names as its shape has less those that are fixed, positive widths, and the results of its shape; setKernelShape with the same shape sets another kernel and keeps all that, and a copy has the same results. The units of the parameters are those of the formula. As coded, setKernelShape to another shape, as in the example of the documentation, ends in a ValueError and leaves a model with the new shape and the old parameters; the angle is measured clockwise where the documentation says counterclockwise; and the amplitude is not 1 as documented.", "quantifier": "all names and numbers, all kernels, all sets of fixed parameters, all positions, widths and angles", "why_tests_cant": "a test of a few shapes does not see which names are accepted, nor the state that is left after an exception; orientation is a statement on all positions and angles", "anchors": ["BayesicFitting/source/Kernel2dModel.py:parseShape", "BayesicFitting/source/Kernel2dModel.py:setKernelShape", "BayesicFitting/source/Kernel2dModel.py:__init__", "BayesicFitting/source/Kernel2dModel.py:copy", "BayesicFitting/source/Kernel2dModel.py:baseParameterUnit", "BayesicFitting/source/FixedModel.py:select", "BayesicFitting/source/FixedModel.py:selectNames", "BayesicFitting/source/Model.py:__setattr__"]}
{"id": "C98", "title": "Lines printed by iterative fitters", "statement": "What an iterative fitter prints follows from verbose: nothing at 0 and 1; at 2 each hundredth iteration and the last one (n/100 + 1 lines for a Levenberg-Marquardt fit of n iterations); from 3 on all iterations in order. A RobustShell prints each round once, up to the one that converges, or all maxIter rounds when none does. A line shows five parameters up to verbose 3, all at 4 and as many as verbose above that. The default of maxIter is 1000 times the number of parameters. As coded the last iteration of a Levenberg-Marquardt fit is printed twice from verbose 3 on, and plotting the progress (plotfreq, or force) always ends in an AttributeError.", "quantifier": "all verbosities, numbers of iterations, outcomes of the test for convergence and plot frequencies", "why_tests_cant": "what is printed to the screen is not looked at by tests, and a plot that is never asked for does not fail", "anchors": ["BayesicFitting/source/IterativeFitter.py:report", "BayesicFitting/source/IterativeFitter.py:doPlot", "BayesicFitting/source/IterativeFitter.py:__init__", "BayesicFitting/source/LevenbergMarquardtFitter.py:fit", "BayesicFitting/source/LevenbergMarquardtFitter.py:trialfit", "BayesicFitting/source/RobustShell.py:fit"]}
{"id": "C99", "title": "Names of parameters of growing models", "statement": "After any sequence of births and deaths a dynamic model has a name for each of its parameters and for no other, so getParameterName of a chain answers exactly for the indices below the number of parameters. A death keeps the names of the parameters that are left; with the default names, parameter k is always called parameter_k. As coded a birth gives all parameters the default names again: the names the user gave are lost.", "quantifier": "all sequences of grow and shrink with any number of parameters each, all names, all chains", "why_tests_cant": "tests do one or two steps of growing and do not look at the names; that names and parameters stay aligned is an invariant over all sequences", "anchors": ["BayesicFitting/source/Dynamic.py:alterParameterNames", "BayesicFitting/source/Dynamic.py:grow", "BayesicFitting/source/Dynamic.py:shrink", "BayesicFitting/source/BaseModel.py:getParameterName", "BayesicFitting/source/Model.py:getParameterName"]}
{"id": "C100", "title": "Which data a fitter accepts", "statement": "A fit goes on exactly when all data and weights are finite and all accuracies, in a number or in an array, are finite and positive; NaNs and infinities and non-positive accuracies raise a ValueError. What is refused leaves the attributes of the fitter (weights, accuracy, combined weights, sum of weights) as they were; an iterative fitter only sets its number of iterations to zero. The weight of a datum in the fit is w / a^2 with a positive a. As coded a list of accuracies, documented as array_like, is a TypeError, and negative weights are accepted.", "quantifier": "all data, weights and accuracies, finite or not, of any length; all states of the fitter", "why_tests_cant": "a test refuses one or two NaNs; that nothing else comes in, and that nothing is changed by what is refused, holds for all inputs and states", "anchors": ["BayesicFitting/source/BaseFitter.py:checkNan", "BayesicFitting/source/BaseFitter.py:fitprolog", "BayesicFitting/source/IterativeFitter.py:fitprolog"]}
{"id": "C101", "title": "Which classes are subclasses", "statement": "Tools.subclassof( sub, cls ), used to recognise a fitter class given to NestedSampler.bestUpdate, is never true for a class that does not inherit from cls, nor for something that is not a class. For classes in single inheritance it is true exactly when sub inherits from cls. As coded, it follows only one of the bases of a class, the first in the alphabet, so that classes in multiple inheritance (PolynomialDynamicModel, a model and Dynamic) are not recognised as subclasses of their other bases.", "quantifier": "all trees of classes of finite depth", "why_tests_cant": "tests try classes in single inheritance only", "anchors": ["BayesicFitting/source/Tools.py:subclassof", "BayesicFitting/source/NestedSampler.py:__setattr__"]}
{"id": "C102", "title": "Linear parameters of a mixed model", "statement": "After setMixedModel( lindex ) the non-linear parameters of a model are exactly those not listed, whatever the order and repetitions in the list; None takes the statement back, a later call replaces an earlier one, a copy says the same, and appending a model leaves it so.", "quantifier": "all chains of base models, all lists of integers", "why_tests_cant": "The statement is about all lists and all chains; the methods are not called by any test of a fitter.", "anchors": ["BayesicFitting/source/NonLinearModel.py:setMixedModel", "BayesicFitting/source/NonLinearModel.py:isMixed", "BayesicFitting/source/NonLinearModel.py:getNonLinearIndex", "BayesicFitting/source/Model.py:isMixed"]}
{"id": "C103", "title": "What the parameters of the elementary models mean", "statement": "Amplitude, centre and width of a peak, the levels and the steepness of a step, the period and the extremes of a periodic model, and the initial parameters are what the documentation of the model says: e.g. p_0 is the top of a gauss or lorentz, half of it is reached at p_1 + p_2 for a lorentz, a sine repeats after 1/p_0, an etalon lies between p_0/(1+p_1) and p_0, and an etalon with a finesse between -1 and 0 equals one with a positive finesse.", "quantifier": "all parameters (positive width or slope, frequency not 0), all x", "why_tests_cant": "Statements about extremes, limits and equality at all x cannot be sampled.", "anchors": ["BayesicFitting/source/GaussModel.py:baseResult", "BayesicFitting/source/LorentzModel.py:baseResult", "BayesicFitting/source/ArctanModel.py:baseResult", "BayesicFitting/source/LogisticModel.py:baseResult", "BayesicFitting/source/SineModel.py:baseResult", "BayesicFitting/source/EtalonModel.py:baseResult", "BayesicFitting/source/ChebyshevPolynomialModel.py:basePartial", "BayesicFitting/source/PadeModel.py:__init__"]}
{"id": "C104", "title": "A decision tree of a given depth, and the text that describes a tree", "statement": "DecisionTreeModel( depth=d, kdim=[...], split=... ) with at least 2^d - 1 axes in kdim is a tree with all 2^d leafs at depth d; in the order in which the tree is walked each branch has its own axis of kdim and its own number of split, the last number being used for the rest, as a split on a float axis and as a mask on the others, and with numbers between 0 and 1 it passes check(). With fewer axes it is an IndexError. A list of splits that is long enough is not changed. fullName() has one line per leaf, numbered as the parameters, and one per branch, a leaf is indented in proportion to its depth, and different trees have different texts. It is refuted that the default kdim (or None) can be used, that split=None gives a usable tree, and that the list of splits of the caller is left alone.", "quantifier": "for all depths, lists of axes, types and splits; for all trees", "why_tests_cant": "Trees of any depth and all lists of axes and splits; tests build a few shallow trees.", "anchors": ["BayesicFitting/source/DecisionTreeModel.py:__init__", "BayesicFitting/source/DecisionTreeModel.py:setSplitOrMask", "BayesicFitting/source/DecisionTreeModel.py:fullName", "BayesicFitting/source/DecisionTreeModel.py:recursiveName"]}
{"id": "C105", "title": "The three methods for the eccentric anomaly: when they converge and to what", "statement": "Halley's method, the one that is used, converges for every list of mean anomalies when the eccentricity is at most 0.4, in at most five turns. Newton's method converges for every list when the eccentricity is at most 0.5; whenever it converges, for an eccentricity below 1, each answer is within 3e-8/(1-e) of the solution of E - e sin E = M. The fixed point method converges for every list when the eccentricity is at most 0.8; whenever it converges, the answer is within 1e-8/(1-e) of E0 - pi where E0 solves Kepler's equation for M + pi, i.e. of the solution of E = M - e sin E and not, as documented, of E = M + e sin E.", "quantifier": "all lists of mean anomalies, all eccentricities in the ranges given", "why_tests_cant": "Tests compare the methods at a few eccentricities and phases; convergence for all phases and the bound on the error are statements about all real numbers.", "anchors": ["BayesicFitting/source/Kepplers2ndLaw.py:eccentricAnomaly0", "BayesicFitting/source/Kepplers2ndLaw.py:eccentricAnomaly1", "BayesicFitting/source/Kepplers2ndLaw.py:eccentricAnomaly2"]}
{"id": "C106", "title": "What a list of samples tells about its history", "statement": "Samples added one after the other get the generations 0, 1, 2, ... and the identities they had before as parents; the evolutions of likelihood and weight follow the order of adding. When all samples have the same number n of parameters, getParameterEvolution is the table of them, a column can be asked for with an index from -n to n-1 and any other index is an IndexError; the average and standard deviation of each parameter are the weighted ones. The largest number of parameters is attained. After normalize the weights sum to 1. Median and modus, asked for the first time after normalize, are where the cumulative weight passes one half and at the largest weight; once asked, the same index is given whatever is done to the list. As long as the samples have rising likelihoods the last one, which is said to have the maximum likelihood, has it; normalize, weed and adding a better one keep it so.", "quantifier": "all lists of samples, all histories of adding, normalizing, weeding and asking", "why_tests_cant": "Tests look at the list at the end of one run with a fixed model; the flags and kept indices only go wrong in other orders of calls, and the tables only for dynamic models.", "anchors": ["BayesicFitting/source/SampleList.py:getParameterEvolution", "BayesicFitting/source/SampleList.py:getMaximumNumberOfParameters", "BayesicFitting/source/SampleList.py:getGeneration", "BayesicFitting/source/SampleList.py:getMedianIndex", "BayesicFitting/source/SampleList.py:__getattr__", "BayesicFitting/source/SampleList.py:averstd", "BayesicFitting/source/SampleList.py:normalize", "BayesicFitting/source/SampleList.py:weed"]}
{"id": "C107", "title": "Running a NestedSampler, and running it again", "statement": "After a call of sample the returned log of the evidence is the log of the sum of the weights of all samples, and after normalization each sample has its share of it. A second call of sample on the same sampler, with the same new walkers and random choices as a fresh sampler, gives the same evidence and the same number of iterations as the fresh one. (Both refuted in part: the evidence in the list of samples stays 0; the samples of the first run stay in the list and take the share 1/(1+Z); for a linear model the second run makes no iterations.)", "quantifier": "all walkers, random choices, stopping criteria and numbers of iterations", "why_tests_cant": "Tests make a new sampler for each run and look at the evidence of the sampler, not at that of the list.", "anchors": ["BayesicFitting/source/NestedSampler.py:sample", "BayesicFitting/source/NestedSampler.py:nextIteration", "BayesicFitting/source/SampleList.py:__getattr__", "BayesicFitting/source/SampleList.py:normalize"]}
{"id": "C108", "title": "Priors and names of the parameters of a CombiModel", "statement": "Each parameter of a CombiModel has its own name: that of the parameter of the repeated model, with the number of the copy after it unless the parameter is tied over the copies. The parameters of the first copy have the priors of the repeated model. The same goes for the other copies, when no parameters are tied.", "quantifier": "all repeated models, numbers of copies, ties, priors of the repeated model, parameters", "why_tests_cant": "tests look at the prior and the names of a few models", "anchors": ["BayesicFitting/source/CombiModel.py:getPrior", "BayesicFitting/source/CombiModel.py:baseParameterName", "BayesicFitting/source/Model.py:getPrior"]}
{"id": "C109", "title": "Priors of a RepeatingModel", "statement": "setPrior of a RepeatingModel sets the prior of one parameter of the repeated model, and by that of all its repetitions; the other parameters before it keep their priors. It succeeds for the parameters of the repeated model in order, and raises IndexError for higher numbers. A copy has the same priors and can be changed without effect on the original. hasLimits tells whether all priors have limits.", "quantifier": "all repeated models (single ones), parameters, shared parameters, priors and sequences of calls", "why_tests_cant": "tests set the priors of one model once and look at the result", "anchors": ["BayesicFitting/source/RepeatingModel.py:setPrior", "BayesicFitting/source/RepeatingModel.py:basePrior", "BayesicFitting/source/RepeatingModel.py:copy", "BayesicFitting/source/BaseModel.py:hasLimits"]}
{"id": "C110", "title": "Samples that have been collected do not change any more", "statement": "A sample in the list of samples has the parameters that its walker had when it was collected, and keeps them, whatever GibbsEngine, StepEngine, RandomEngine, ChordEngine and GalileanEngine and the copying of walkers do after that. A call of one of these engines only changes the walker it was asked to move, and the walkers and phantoms that it has stored are not changed by the rest of the call. A copied walker has parameters of its own.", "quantifier": "all ensembles, sequences of collecting, copying and engine calls, trial values and outcomes of the tests", "why_tests_cant": "arrays that are shared by mistake show up only after some later in place assignment, long after the test has looked", "anchors": ["BayesicFitting/source/Walker.py:copy", "BayesicFitting/source/Walker.py:toSample", "BayesicFitting/source/Engine.py:setWalker", "BayesicFitting/source/WalkerList.py:copy", "BayesicFitting/source/GibbsEngine.py:execute", "BayesicFitting/source/StepEngine.py:execute", "BayesicFitting/source/RandomEngine.py:execute", "BayesicFitting/source/ChordEngine.py:execute", "BayesicFitting/source/GalileanEngine.py:execute"]}
{"id": "C111", "title": "Assigning ncomp, minComp, maxComp and deltaNpar of a dynamic model", "statement": "For every dynamic model (polynomial, harmonic, splines, repeating) as constructed, and every sequence of grow and shrink, ncomp stays between minComp and maxComp, which stay as constructed, each successful grow (shrink) changes ncomp by one, and the number of parameters is the one that belongs to ncomp. The attributes can be assigned (an int; None also for maxComp; otherwise TypeError); an assigned maxComp limits polynomials, harmonics and repeating models in every later history. Shown false: that after assigning ncomp to a polynomial or harmonic it still counts the components (it stays as assigned, and the model grows past its highest degree without end); that limits assigned to a splines model are kept to; that a copy of a polynomial, harmonic or splines model has the assigned limits; that assigning ncomp to a repeating model leaves it with the number of parameters it needs.", "quantifier": "for all kinds, sizes, limits, numbers of parameters, assigned values and sequences of grow and shrink", "why_tests_cant": "The tests grow and shrink a few constructed models; none assigns an attribute and then grows, and no number of steps shows that there is no limit.", "anchors": ["BayesicFitting/source/Dynamic.py:setDynamicAttribute", "BayesicFitting/source/Dynamic.py:grow", "BayesicFitting/source/Dynamic.py:shrink", "BayesicFitting/source/PolynomialDynamicModel.py:__getattr__", "BayesicFitting/source/HarmonicDynamicModel.py:__getattr__", "BayesicFitting/source/SplinesDynamicModel.py:grow", "BayesicFitting/source/SplinesDynamicModel.py:__getattr__", "BayesicFitting/source/RepeatingModel.py:grow", "BayesicFitting/source/RepeatingModel.py:shrink", "BayesicFitting/source/RepeatingModel.py:copy"]}
{"id": "C112", "title": "Taking a model out of a compound model, and copying a compound model", "statement": "For every compound model (head, any chain of models behind it) and every k: isolateModel( k ) of the head returns a model on its own that calculates what the k-th calculates, with exactly the parameters and standard deviations that belong to it, and leaves the compound as it was; when there is no k-th it is an IndexError. copy returns a compound of the same models and operations with the same parameter values in an array of its own, and leaves the original as it was. Shown false: that an isolated model has its parameters for itself (they are a view on those of the compound, so assigning to one assigns to the other); that isolateModel of a model inside the compound has its own parameters (it has the first ones of the compound); that isolating or copying that fails leaves the compound as it was (what is behind the model that cannot be copied is lost).", "quantifier": "for all chains, numbers of parameters, positions and values", "why_tests_cant": "The tests isolate one model of one compound and look at its values; nothing assigns to them afterwards, starts inside the chain or makes a copy fail, and no list of compounds covers all chains.", "anchors": ["BayesicFitting/source/Model.py:isolateModel", "BayesicFitting/source/Model.py:__init__", "BayesicFitting/source/Model.py:appendModel"]}
{"id": "C113", "title": "Parameters of compound models with brackets", "statement": "For all models: building in place (+= and the like, BracketModel) gives a compound with exactly as many parameters as its models need and the values of the parts, also with brackets in brackets. A copy of a compound that does not begin with brackets (nor any model inside brackets) is the same, model1 + model2 has the parameters of both, and parameters that are assigned (ValueError unless there are npchain of them) are in its copies. Shown false: that the copy of a BracketModel has the parameters that were assigned to it (it has those of the model inside); that the copy of a compound that begins with a BracketModel has as many parameters as it needs (it has only those of the brackets); that adding a third model to it with an operator gives a compound that takes as many parameters as its models need.", "quantifier": "for all compounds of any length and depth of brackets, all numbers of parameters and values", "why_tests_cant": "The tests put a BracketModel behind another model, or use it alone with the parameters it was made with; no test copies it after assignment or puts it first, and tests do not cover all nestings.", "anchors": ["BayesicFitting/source/Model.py:Brackets.__init__", "BayesicFitting/source/BracketModel.py:copy", "BayesicFitting/source/Model.py:__init__", "BayesicFitting/source/Model.py:appendModel", "BayesicFitting/source/Model.py:__add__"]}
