# Formal model of Classification-CPP: design

Source: /repo (C++), read as text only.  Model and proofs: /verif/rocq/theories (Rocq/Coq 8.16.1, standard library only).

## Modelling conventions

* Every C++ function becomes a total Gallina function; the comment above each definition cites file and lines.
* Outcomes: `res A := Ok a | Throw e | UB k`.  `vector::at` out of range is `Throw OutOfRange`; unchecked `[]`, null
  dereference, `end()` dereference, bad down-cast, reading uninitialised memory, falling off a non-void function,
  integer division by zero and signed overflow (where the property is about it) are `UB`.
* Pointers to immutable objects are modelled by values; functions that mutate through a pointer return the new value.
  Object lifetime (delete/double free/leaks) is only modelled where a property is about it.
* `double` is `dbl := Fin (q : Q) | PInf | NInf | NaN`: comparisons are exact; `+ - * /` are exact on finite values and
  follow IEEE-754 for infinities and NaN, with one unsigned zero (x/0 = +inf for x>0).  Rounding is *not* modelled,
  except in the files that say so: RoundModel.v (binary64 rounding over the rationals, C129 onwards) and those that use
  SpecFloat, the standard library's binary64.  Where sqrt/exp/log are needed the
  model is over the standard library's reals `R` (axioms listed below).
* `int`/`size_t` are unbounded unless the comment says otherwise.
* `std::map` is an association list ordered by key; `std::string` is `String.string` with byte order.
* External libraries (Math, Sampling, DataStructure, Util: DiscreteDistribution, CounterHashMap, Vector, Matrix,
  KFoldCrossValidation, Bootstrap, RandomArray, StringUtils::split, distribution tables; std::shuffle, stod) are not in
  the repository.  Deterministic containers are modelled by their documented behaviour; everything random or numeric is an
  explicit function argument whose assumed contract is a hypothesis in the theorem.
* Loops with no evident bound run on fuel; running out of fuel is a distinct outcome that theorems exclude or speak about.

## Plan per property

* **C01 Attribute kinds are exclusive and vector sizes agree** - Attr model; case analysis and induction on the attribute list.
* **C02 Indexed attributes are one-hot encoded** - Attr model; characterise the generated list position by position (nth_error).
* **C03 Sparse and dense vectors of an instance agree** - Sparse node lists as (index,value) lists; induction on the merge loop with the strictly-increasing-index invariant.
* **C04 Feature subset of an instance is a projection** - Instance model returning res (Ok/Throw/UB); induction on the index list. Composite part refuted.
* **C05 Composite instance label set** - State machine over setPossibleClassLabels; refuted by witness, actual (append) law proved for all histories. Also: FurtherProps.v (C05_add_attribute) says that adding an attribute leaves label and possible labels alone.
* **C06 Data set: stored instances conform to the definition** - init/step machine for addInstance; invariant by induction over histories.
* **C07 Data set: stored instances have the definition's arity** - same machine; refuted by witness, partial: at most the definition's arity.
* **C08 Data set: history of addInstance** - same machine; refinement to 'filter accepted'.
* **C09 Data set: loading tolerates malformed lines** - Loader as a function from list of lines; string split and stod are explicit function arguments. Induction on lines.
* **C10 Data set: write then read round trip** - writer composed with loader; proved for data sets whose printed form is unambiguous (explicit predicate), refuted in general (value ',').
* **C11 Data set: feature subset** - projection of addInstance fold; induction.
* **C12 Attribute counting is complete** - refuted (indexed attributes are in neither count); partial: exact law with the indexed count added.
* **C13 Sorting by a feature** - stable insertion sort as model of std::stable_sort (contract: the unique stable sorted permutation), uniqueness proved.
* **C14 Sorting by class** - as C13 with string order; contiguity of blocks derived.
* **C15 Distinct label and value lists** - fold model; NoDup / membership / first-occurrence order by induction.
* **C16 Class distribution counts** - counter map model; induction, permutation invariance.
* **C17 Attribute-by-class distributions are a contingency table** - counter maps indexed by value; induction. Also: FurtherProps.v (C17_mixed_column) says that counting a column of words with a number among them is undefined.
* **C18 Averages** - exact rationals with NaN/infinities; algebra on sums.
* **C19 Standard deviation** - reals (sqrt); algebra.
* **C20 Covariance matrix** - exact rationals; quadratic form is a sum of squares.
* **C21 Instance list save/load round trip** - character-level writer and stream reader (SerialModel: skipping of blanks, failing streams, uninitialised targets); the written text read back is empty; the layout of the shipped files is read back exactly.
* **C22 Partition by class** - fold model of push into group; induction.
* **C23 Partition by discrete value** - as C22.
* **C24 Partition by indexed value** - as C22.
* **C25 Partition by threshold** - as C22 on doubles with NaN.
* **C26 Random split sizes** - shuffle is a function argument assumed to permute; counting argument on i < n*ratio.
* **C27 Stratified split keeps class proportions** - index array is a function argument assumed to be a permutation; counter argument per class.
* **C28 Tree conditions agree with the partition that created the child** - Partition model + satisfy model; case analysis.
* **C29 Confusion matrix counts** - init/step machine; refinement to multiset count of the history.
* **C30 Accuracy** - same machine; arithmetic.
* **C31 Merging confusion matrices** - same machine; append of histories.
* **C32 Precision, recall, F-measure** - doubles with NaN/infinities for 1/0; arithmetic.
* **C33 Weighted F-measure** - weighted mean bound; induction.
* **C34 Per-label reports are defined for every declared label** - uninitialised read / end() dereference are UB outcomes; refuted, partial: exact guard.
* **C35 Experiment means** - exact rationals (reals for sqrt); permutation invariance.
* **C36 isBetter is a strict order** - order on exact means; UB guard explicit.
* **C37 Feature selection terminates** - fuelled loop with proof that fuel 2^n-style bound on processed subsets always suffices.
* **C38 Feature selection returns a local optimum** - loop invariant: best is max over evaluated trace.
* **C39 Feature selection never evaluates a subset twice** - loop invariant on the processed list.
* **C40 Neighbourhood operators** - induction on the candidate loops.
* **C41 Discrete to numeric filters** - conversion functions; induction over attributes.
* **C42 Filters encode every value that occurs** - refuted by ',' witness; partial under guard value <> ','.
* **C43 Filters keep the data definition in step** - refuted by witness.
* **C44 Normalisation** - reals; algebra on sums.
* **C45 Euclidean distance basics** - induction over features.
* **C46 Euclidean distance is a metric** - refuted by witness.
* **C47 k nearest neighbours** - stable sort + firstn; generic optimality lemma.
* **C48 k-NN prediction** - argmax of counter.
* **C49 Gaussian-type prediction maximises the metric** - generic strict-> argmax scan over candidates.
* **C50 Retraining forgets the previous data** - per model train state machine; proved for k-NN, dummy, k-means, linear perceptron, decision tree; refuted for LDA, QDA, NB, bagging, forest, SVM, deep network.
* **C51 Sign test p-value** - binomial sums over Z; overflow of int factorial is UB outcome.
* **C52 Paired t test is antisymmetric** - reals/rationals; algebra.
* **C53 Combined 5x2 F test** - algebra.
* **C54 compare() decides by significance** - decision function over abstract test results.
* **C55 Test result tails** - order lemmas.
* **C56 K-fold experiments** - experiment driver with fold provider as argument + contract; induction on folds.
* **C57 Repetitions of MxK fold runs differ** - refuted: all repetitions are equal.
* **C58 Separate test set is never trained on** - driver over positions; disjointness.
* **C59 Bootstrap runs** - driver trace.
* **C60 Decision tree construction terminates** - tree builder with fuel; entropy and midpoint are arguments; proof that fuel = size suffices; with IEEE-754 midpoint (SpecFloat) refuted for every fuel.
* **C61 Tree predictions are known labels** - induction on the built tree.
* **C62 A tree fits its training data at least as well as the majority class** - induction on tree with partition counting.
* **C63 Pruning never hurts on the pruning set** - state machine on tree; invariant on accuracy.
* **C64 Decision stumps have depth at most one** - inversion of builder.
* **C65 Decision tree save/load round trip** - writer and recursive stream reader at character level; refuted for the written text, proved on covered instances for the shipped layout.
* **C66 Ensembles vote** - votes counted by a counter map; argmax and shares.
* **C67 Model testing records every test instance once** - fold of classify.
* **C68 Most frequent label** - argmax of counter.
* **C69 SVM: kernels are symmetric and both implementations agree** - merge-loop lemma + function of dot product; exp/tanh/pow are arguments; swaps by induction.
* **C70 SVM solver keeps the constraints** - one-step invariant on doubles with infinities.
* **C71 SVM solver bookkeeping follows the permutation** - permutation invariant over swap histories. Also: FurtherProps.v (C71_set_aside) says which samples doShrinking sets aside; ShrinkProps.v says that the pair that violates most stays (C71_pair_stays) and when all samples are looked at again (C71_looks_again).
* **C72 SVM solver returns multipliers in the original order** - in-place write-back refuted; partial for identity/idempotent cases.
* **C73 SVM decision values** - class blocks of the sorted list; marks, compressed support vectors and coefficient cells as blocks; every cell written once; the sums over marked vectors equal the full sums because unmarked multipliers are zero.
* **C74 SVM votes** - vote counting, first maximum.
* **C75 Softmax outputs** - reals; exp.
* **C76 Network prediction** - argmax scan.
* **C77 Networks keep the best epoch** - fold over epochs. Also: FurtherProps.v (C77_auto_misfit) says that an auto encoder asked about an instance of another size returns no value.
* **C78 predictProbability is a distribution** - refuted.
* **C79 Deep network layers fit together** - shape algebra; retraining/tanh refuted.
* **C80 Soft tree output is a convex combination** - SoftModel; textbook tree over the rationals (SoftSpec: expected answer of the leaves), induction on the tree.
* **C81 Soft tree growth never increases validation error** - loop invariant over the eleven rounds (state restored up to scratch members, first minimum kept), induction on the recursion with the number of errors as measure. Also: FurtherProps.v (C81_factor) gives the learning factor of every epoch.
* **C82 Model save/load round trips** - writer and reader of each model at character level, distribution/vector/matrix codecs as arguments with a round-trip contract; per model proved or refuted. Also: FurtherProps.v (C82_auto_encoder_empty).
* **C83, C84** - data set loading, see DataSetProps.v.
* **C85** - performance reports, see PerformanceProps.v.
* **C86 PCA** - projection model; eigen-decomposition is an argument; refuted for the constructors without a dimension.
* **C87 Bagging trains on bootstrap samples** - map over the ensemble size; bootstrap draw is an argument with contract `draws`.
* **C88 Dummy model** - argmax of the class distribution.
* **C89 Random model** - the random number is an argument; modulo arithmetic; refuted for empty label lists.
* **C90 Random forest attribute subset** - induction over the grown tree.
* **C91 SVM solver safety and stopping** - state invariant (arrays permuted consistently, gradients of the current multipliers) kept by every iteration; stopping test implies KKT.
* **C92 Every SVM solver step lowers the objective** - exact quadratic along the clipped step.
* **C93 SVM solver result is near the optimum** - convexity from positive semidefiniteness plus the KKT gap.
* **C94 Predictions do not depend on history** - the output buffer is part of the model state; the stale answer after a caught mismatch is a refutation.
* **C95 A training step follows the gradient** - textbook network over the rationals (NetSpec), the code's vectors and matrices read as rational functions; tanh refuted.
* **C96 A soft tree training step follows the gradient** - closed form of the update loops, compared with the gradient written over the rationals; gate refuted.
* **C97 A soft tree can be trained and asked** - totality of training under a coverage condition; refuted without it and for predictProbability.
* **C99 A model file in the layout of the shipped models loads to the model it describes** - readers composed from lemmas 'this text is read as this value', induction over rows, labels, trees, layers.
* **C100 Loading a model replaces the previous one** - readers take the previous object as argument; independence proved where it holds, refuted elsewhere.
* **C101 The linear discriminant scores classes by Gaussian log posterior with pooled covariance** - algebra over finite sums on top of the covariance lemmas; the inversion and the logarithm are arguments with contracts ('product with the input is the identity', 'finite on positive arguments'); symmetry of the inverse is derived. The single-instance-class defect (0/0 in the class covariance) is proved for every data set.
* **C102 The quadratic discriminant scores classes by Gaussian log posterior with class covariances** - as C101, class by class.
* **C103 Discrete naive Bayes scores classes by Laplace-smoothed log posterior** - induction over features and instances; getProbabilityLaplaceSmoothing of the Math library is modelled by its documented formula.
* **C104 Continuous naive Bayes predicts the class of maximal Gaussian posterior** - exact formula of the score proved for all inputs; the posterior claim is refuted with a concrete data set, comparing real-valued densities.
* **C105 Mahalanobis distance is the quadratic form of the matrix** - sums over indices; mismatch cases by computation. Not modelled: MahalanobisDistance derives privately from DistanceMetric, so a caller cannot convert it to the interface the models take.
* **C106 Destroying an instance releases its own objects** - heap model (HeapModel.v), `strict` selects the letter of the standard (delete through a base without a virtual destructor is undefined) or the usual implementation. Strict: refuted for every instance with an attribute. Usual implementation: exactly the instance and its attributes are released. removeAttribute / removeAllAttributes leak: refuted.
* **C107 A feature subset reads the chosen attributes** - reading is proved; independence is refuted: the subset holds the same attribute objects, so rescaling one changes the other and destroying both is a double free.
* **C108 Normalising rewrites every stored instance once** - proved for data sets of newly built instances and more generally for instances that share no attribute object (this also justifies treating instances as values elsewhere); refuted for an instance stored twice, e.g. in a bootstrap sample.
* **C109 A decision tree owns its nodes** - proved for trees trained or loaded once (exactly the tree and its nodes are released); refuted: the attributes of the conditions leak, training again leaks every node of the first tree, an untrained automatic tree deletes an uninitialised pointer, destroying a copy is a double free.
* **C110 Destroying a soft decision tree** - strict: refuted, the nodes are SoftDecisionNode objects deleted through DecisionNode*. Usual implementation: exactly once. A soft node deleted as such frees its children twice.
* **C111 An ensemble owns its trees** - foldM over any list of trainings; proved in both modes (all classes are deleted through their own type).  Copying the model or building two from one vector is refuted.
* **C112 Temporary arrays are given back** - proved for pairedt, combined 5x2 t and F; refuted for fMeasure (delete on new[]), weightedFMeasure (leaks an array per call) and the 5x2 t test (leaks when it throws for variance 0).
* **C113 Decision tree probabilities are class frequencies** - induction on the grown tree; `stops`/`passes` name the node by its path, so the claim does not mention the stored counts.
* **C114 SVM training terminates** - in exact arithmetic: a step that reaches the optimum of its pair lowers the objective by a fixed amount; a step stopped by a bound keeps all multipliers on the grid of their common denominator and lowers it by an amount fixed by the grid; the objective is bounded below. Rounding is outside the claim.
* **C115 Decision tree splits are the best available** - in exact arithmetic; candidate splits are defined on the raw attributes, not through the search. Also recorded: a consistent training set (exclusive or) on which the unpruned tree is a single leaf and misclassifies half of the data.
* **C116 Parameter objects reach the training they are for** - C116_settings: one equation per class; C116_wrong_class, C116_derived, C116_null, C116_not_read and C116_seed: over all classifiers. Also: FurtherProps.v (C116_seeds) says that the short constructors keep the seed.
* **C117 Experiments with the library's own classifiers** - C117_rounds and C117_seed cover all nine runs and all classifiers. Independence of the rounds: proved for nearest neighbours, nearest means, dummy, random, trees, stumps and soft trees (C117_separately), for linear and multi layer perceptrons on data with one number of inputs and for the auto encoder (C117_linear, C117_mlp, C117_auto). It fails for the rest: the linear and quadratic discriminants of the first round are used in all rounds with the same labels (C117_lda_partial, C117_qda_partial), forests grow from round to round (C117_bagging_partial, C117_forest_partial), a deep network cannot be trained in a second round (C117_deep_refuted); with naive Bayes, discriminants, ensembles and support vector machines the run reports better results than models trained anew (the other refuted theorems).
* **C118 The order of the training data does not matter** - C118_tree and C118_stump: the trees may be different objects, but give the same labels and probabilities. C118_dummy_and_random: the trained states are equal. C118_accuracy: for any classifier that answers on all test instances. False for pruned trees: the order decides which instances are left aside (C118_pruned_refuted).
* **C119 The units of the features do not matter to decision trees** - C119_tree: trees and stumps, also with the rows in another order. C119_pruned_tree: with pruning. C119_forest: bagging and random forests. With a decreasing conversion numbers on a threshold change sides (C119_decreasing_refuted).
* **C120 The order of the training data does not matter to the distance and density classifiers** - k-nearest neighbours: C120_knn_partial for any distance without NaN, if instances that tie for the last of the k places have the same label; C120_knn_all without that condition if k is at least the number of instances; C120_knn_refuted: with a tie between labels the first in the list wins. C120_kmeans, C120_lda, C120_qda, C120_bayes_discrete, C120_bayes_continuous: the predictions are equal for every query. The deviations used by naive Bayes come from a function that must not depend on the order.
* **C121 Which units the distance and density classifiers depend on** - C121_knn: the same neighbours in the same order, for one common factor (1 or -1 if there are discrete features) and any shifts. C121_kmeans: the same labels, as long as no squared distance reaches the largest double. C121_one_unit_refuted: another unit for one feature changes the nearest neighbour and the nearest mean. C121_lda and C121_qda: the scores of a query all change by the same summand, so the label stays, as long as the scores stay above minus the largest double. C121_bayes: equal scores if the deviations are in the units of the data (they are: C19_scale, C19_shift_invariant). C121_mahalanobis: for the inverse of the pooled covariance.
* **C122 The description of a data set tells its name, its sizes and its labels** - C122_info gives the seven lines; C122_info_faithful inverts them (names without newline, labels without ';'). REFUTED: an empty data set cannot be described (C122_empty_refuted: out_of_range), labels with ';' run together (C122_labels_refuted), and to_string writes the numbers without separators, so that data sets of different sizes share a text (C122_text_refuted).
* **C123 The text of a neighbour shows label and distance** - REFUTED: the double is appended as a char. C123_neighbour: for a distance below 128 the text ends in the character whose code is the integral part, for larger ones the conversion is undefined; C123_distance_refuted: different distances, same text.
* **C124 An exception tells what went wrong** - what() is modelled as a pointer into a literal or into a destroyed string. C124_fixed_texts: two exceptions have literal texts. REFUTED for StatisticalTestNotApplicable, which returns the buffer of a local string (C124_reason_refuted).
* **C125 Classifiers that must coincide do coincide** - One theorem per pair. The Gaussian pairs ask that no score falls below -DBL_MAX, where the comparison of GaussianModel::predict starts. C125_knn_recalls: the nearest neighbour of a training instance gives back its label unless another label has the same features. Equally near instances are resolved differently: C125_tie_refuted shows k-means taking the smaller label and the neighbour model the earlier instance.
* **C126 A deep network with one hidden layer is a multi-layer perceptron** - C126_train_partial: proved by a simulation of the two training loops for sigmoid and relu, and for tanh with a single hidden unit: same labels, same weights, same answers and the same failures. REFUTED for tanh with more units (C126_tanh_refuted): DeepNetworkModel subtracts from a vector of ones that has as many entries as there are layers, the mismatch is caught and the network is never trained.
* **C127 An unpruned tree classifies its training data when one feature tells the classes apart** - From C115: a node that stops has no split that lowers the entropy; cutting off the smallest value of the telling feature would. C127_gini shows that the contract on the impurity can be met. Without such a feature the claim is false (C115_fits_training_data_refuted).
* **C128 The names of the classes do not matter** - A simulation, function by function: each modelled function run on renamed data is the renaming of its result. C128_order_refuted and C128_empty_refuted show that both conditions on the renaming are needed.
* **C129 What rounding does to accuracies** - RoundModel defines binary64 rounding over the rationals and repeats the functions concerned with a rounding after every operation; RoundSpec says what is used of a rounding; RoundProofs proves it for binary64, which C129_specfloat_case compares with Coq's own SpecFloat. Comparison of experiments by mean accuracy is refuted: C129_better_refuted (order of the rounds), C129_repeated_refuted.
* **C130 Distances and nearest neighbours with rounding** - Every contribution is a rounded square (also those of discrete features), so order follows from monotonicity of rounding; the error bound is an induction over partial sums. C130_separation_refuted (underflow, overflow), C130_order_refuted (near ties go to the wrong neighbour) and C130_feature_order_refuted mark the limits.
* **C131 Statistical tests with rounding** - RoundStatModel repeats StatTestModel with roundings; swap by r_opp (rounding commutes with negation), refusals by exactness at 0, sign test by exactness of dyadic fractions. C131_constant_refuted: ten error rates of 0.2 against ten of 0.1 give t = 2.16e16 instead of StatisticalTestNotApplicable.
* **C132 Growing trees with rounding** - RoundTreeModel repeats the growing part of TreeModel with roundings. A split that separates nothing is never better: exactly so for discrete columns, by the hypothesis steady for indexed ones; midpoints by the error of two roundings. C132_unsteady_diverges: the hypothesis steady is needed; C132_indexed_refuted: 3 against 8 in binary64.
* **C133 A model file that is missing, empty or cut off** - A stream is exhausted when the open failed or only blanks are left. C133_nothing_refuted: the loaders then use an unset count. C133_network_refuted: a trained network silently gets empty labels. C133_labels_refuted, C133_half_label_refuted: missing labels become copies of the last. C133_open_row_refuted: missing rows become copies of the last when its newline is missing too. C133_short_row, C133_rows: other cuts in the rows of a k-NN file never give a model.
* **C134 The order of the features** - An arrangement is a permutation of the feature numbers; `reorder` lists an instance's features in that order (FeatOrderSpec.v). k-NN: exactly the reordered neighbours, the same label and probabilities. k-means: the reordered means, same answers. Naive Bayes: same answers and equal scores for any logarithm; on numbers the standard deviations have to be those of the columns. Discriminants: same answers on invertible covariances (the determinant of a matrix with rows and columns rearranged alike is proved equal). C134_tree_refuted: a tree breaks ties by the order.
* **C135 On ordinary data everything works** - ReadySpec.v: `clean d l` (at least one instance, d finite numbers each), `sound E` (what the other libraries owe: an inverse keeps its dimensions, index arrays are permutations, random matrices have the requested shape), `suits` (a parameter of the class the code casts to, k at least 1, a validation share that leaves an instance where the code needs one), `steady` (what an object may hold from earlier trainings), `ready` (every clean query is answered with a training label). C135_svm: with enough steps, under the conditions of C73. C135_prune_refuted: pruning with a default share on one instance per class throws. C135_auto_refuted: an autoencoder with more features than classes throws on the very instances it was trained on.
* **C136 A support vector machine sees the features only through the kernel** - KernelViewSpec.v: `alike` (both runs succeed with related results, or both fail in the same way), `unseen`, `unseen_query` (equal kernel values in training and in prediction, for arbitrary data including infinities and NaN), `machines_agree`. C136_products and C136_distances: for finite data it is enough that scalar products, or with the radial kernel distances, are kept; libm as in C69. Exact arithmetic, as everywhere in the model; in floating point the sums are rounded in the order of the features.
* **C137 A support vector machine does not err on training data that it can tell apart** - SepSpec.v: `expansion`, `squared_length`, `separable` (vectors and signs), `told_apart` (instances), `plane_apart`. C137_solution: full claim for the multipliers and offset in the final state of the solver, with or without shrinking. C137_separable_partial, C137_planes_partial: for the trained machine, when every two-class run ends within min(l, 1000) iterations, i.e. before the first shrinking. C137_refuted: three points on a line, a plane between them, C = 1000; the in-place write-back (Solver.cpp:166-168, see C72) corrupts the multipliers and a training instance is misclassified.
* **C138 A feature that is the same in all training instances** - ConstSpec.v: `insert_at`, `with_feature`, `moved_tree`, `same_value`, `apart`. C138_tree, C138_bagging: training on the extended data gives the renumbered tree(s) (also the same failure), and the same predictions and probabilities for any query value; the value must not be NaN (C138_nan_refuted). C138_knn: finite values (C138_knn_infinite_refuted). C138_kmeans: same value in the query, or any finite one while the distances stay below DBL_MAX. C138_bayes_texts: the exact change of the scores; C138_bayes_texts_refuted: a data set whose answer flips for every logarithm. C138_bayes_numbers: with a zero (or NaN) deviation the answer is the most frequent class, or the first possible label; C138_deviation: the library's standard deviation of such a feature is 0. Support vector machines: C136_constant_feature. Not covered: random forests (the feature takes part in the random choice of features), LDA and QDA (the covariance matrix becomes singular).
* **C139 The paired tests look at the differences of the results only** - StatViewSpec.v: `retold a` (another order, differences times a), `reps_retold` (the same with the two results of a repetition kept together), `outcome`. C139_sign, C139_sign_monotone: equal results and decisions. C139_paired_t: equal statistic, p-value and decision for a > 0, opposite statistic for a < 0. C139_combined: both combined 5x2 tests under reordering of repetitions and of the folds within them. C139_paired_5x2_t: the same if the very first difference stays first. REFUTED without that: exchanging the two folds of the first repetition can turn the sign of the 5x2 t statistic (C139_first_fold_refuted); the combined tests depend on which results form a repetition (C139_repetitions_refuted).
* **C140 Testing on reordered, repeated and divided data** - TestPartsProps.v. C140_order: same accuracy, error rate and matrix; precision, recall and F-measure per label, and the weighted F-measure, are the same though the labels may be listed in another order. C140_two_parts, C140_repeated, C140_recall. C140_two_summaries: the mean accuracy is the plain mean, the merged accuracy is the mean weighted by test set sizes; they agree for test sets of equal size. REFUTED otherwise: test sets of one and three instances with accuracies 1 and 0 give 1/2 and 1/4 (C140_two_summaries_refuted).
* **C141 Giving every training instance several times** - RepeatSpec.v (each, again, times, the contracts entropy_relative and max_item_relative), RepeatProps.v. The contract on the entropy is met by any entropy computed from the shares of the counts. C141_tree, C141_stump, C141_dummy_and_random: any order of the copies. C141_knn, C141_one_neighbour, C141_kmeans: the copies of an instance stand next to each other; any values, infinities and NaN included for k-means; distances other than NaN for neighbours. REFUTED for the nearest neighbour classifier with an unchanged number of neighbours (C141_knn_refuted) and for naive Bayes on discrete features, whose smoothing weighs less when there are more data (C141_bayes_refuted: sixteen instances, for every increasing function in place of the logarithm). Not covered: pruned trees, ensembles, discriminants, continuous naive Bayes, networks, support vector machines.
* **C142 Feature selection compares all subsets on the same rounds** - ViewSpec.v states a view (a function on instances that keeps the label), the contract of the Sampling library (its templates draw positions: they commute with every such function) and the rounds (play). ViewProofs.v writes every run as rounds (rounds_of) and shows that the rounds of a viewed list are the viewed rounds; this needs the naturality of part_class, part_random, part_strat and the two hold-outs. The result is stated with the rounds chosen before the classifier, the view and the subset.
* **C143 What one more or one fewer training instance does to an answer** - NearProps.v. may_answer and distances state the setting without the model's helpers. NearProofs.v: sorting commutes with filtering, the first k of a sorted list survive the deletion of others, inserting one element changes the first k by pushing at most the last one out, and adding an occurrence of the leading label keeps it leading (first among equals). Refutations give the two-instance case of a tie, and small data for the tree and k-means.
* **C144 Which features a decision tree depends on** - UnusedSpec.v states asked (the features on the way of an instance), ignores (no branch asks) and without (an instance with one feature fewer). UnusedProofs.v follows two searches, one on the data and one with the feature replaced by one value: as long as the feature is not the best so far the two bests agree, otherwise whatever beats the feature beats the other best too (overtaken); sorting by the feature only permutes the list, which C118's lemmas absorb. A feature with one value can be removed by C138.
* **C145 A feature that repeats another one** - CopySpec.v states repeats (the later feature says what the earlier one says, in other units) and twice (a feature given once more). CopyProofs.v: two features with the same values have candidates of the same entropies (rivals, through C119's lemma for other units and C144's lemma for a changed feature); the best so far is never worse than the best of the earlier feature, and only a strictly better candidate replaces it. C144 then removes the feature.
* **C146 A class with no more instances than features takes over the quadratic discriminant** - DegenSpec.v states degenerate and dependent and the contracts (inversion leaves finite numbers, logarithm of zero is minus infinity). DegenProofs.v: the determinant is linear in a row, zero with two equal rows, zero with dependent rows; fewer equations than unknowns have a solution; deviations of a class sum to zero, so a class of k instances gives k - 1 equations. The score of a degenerate class is plus infinity, of the others finite or not a number.
* **C147 What telling the possible labels of a query does** - NarrowSpec.v states narrowed (the query with a list), same_labels and clear (no other listed label is as frequent where the tree answers the label). NarrowProofs.v: the answer to the restricted query has a maximal score of the list (C49), so the same score; filtering commutes with stable sorting, so neighbours with listed labels stay; the tree takes the same path.
* **C148 Several classifiers trained on one list, one after the other** - OneListSpec.v states train_all (each call of LibModel.train gets the list the previous one left) and by_class (the stable order by label). OneListProps.v: a stable sort is unique, so sorting again changes nothing; the answers are compared with C118 and C120. That the other classes do not change the list is in LibModel.train: DecisionNode takes the list by value, networks and soft trees shuffle the copies a stratified partition makes.
* **C149 Replacing discrete features by indicators and the nearest neighbours** - EncodeSpec.v states hot (an instance with indicators), differ and unknown (feature counts). EncodeProofs.v: the indicators of two different known values are 2 apart, of a known and an unknown one 1; the new distance is twice the old one minus the number of unknown values of the query, so it orders the training instances in the same way, ties included. The filters are connected by C41.
* **C150 A classifier that is on no fold worse, and a classifier that improves** - DomSpec.v states never_worse (fold by fold) and what is asked of tDistribution. DomProps.v: the recurrence of the tail counts gives that at_most (a+b) a rises with a and falls with b; the wins rise and the defeats fall fold by fold; the signs of the statistics come from C52. The case shows a distribution function that satisfies the contract.
* **C151 On discrete data every classifier either works or refuses** - ReadyTextSpec.v states lists of words, tables of any mixture of columns, answers_all and the sensible settings. ReadyTextProofs.v redoes C135 for them: averages of words exist, the distributions of naive Bayes have one entry per feature, trees over typed tables answer every row; the refusals are the checks at the start of train; for the soft tree the first product of the first round is followed by hand.
* **C152 The label a query carries is not read, so contradictions in the data bound every accuracy** - LeakSpec.v states same_question, blind distances and groups. LeakProofs.v: induction over trees, the other classes by rewriting; the bound counts the hits group by group; C47 gives the single neighbour.
* **C153 Normalising the data before training** - NormUseSpec.v states when attributes hold the normalised numbers (normalised). NormUseProofs.v: the factor of a column is recovered from one value that is not the mean; equal sums of squares give the standard deviation in the other units; then C119 and C121.
* **C154 Between two queries with the same answer** - RegionSpec.v: on_the_way (a mixture of two rows of numbers), convex (same answer at the ends, same answer on the way), in_box. RegionProofs.v: the first best of mixed scores is the first best of the two ends (gauss_between, first_best_mixed); the scores of each classifier are mixed like the rows, for k-means up to a term that is the same for all classes; both sides of a cut are closed under going between.
* **C155 Trees do not look beyond the values they were trained on** - BeyondSpec.v: met (a value of the training data), below_all/above_all, beyond, alike. BeyondProofs.v: every condition of a built tree names a text or number met in its training data or cuts between two numbers met there (build_met, by induction over the construction); pruning keeps conditions, a bootstrap sample is part of the data; such a condition cannot tell alike queries apart, so the way through the tree is the same.
* **C156 Only the order of the numbers matters to an unpruned tree** - RankSpec.v: same_order (a change h of the features keeps texts and the order of numbers on the data), same_tree (equal up to the numbers in conditions), renumber (a function for each feature). RankProofs.v: sorting commutes with h; in the scan over the sorted values both runs hold the same counters and cut the data alike, because both midpoints lie strictly between the same two neighbours (scan_through); hence the same best feature with cuts that split alike (search_through, split_through), and by induction the same tree (build_through).
* **C157 Leaving one out and the majority classifier** - LeaveOutSpec.v: no_empty_fold (contract of the Sampling library in addition to fold_provider), balanced, ahead_by_two, scored (what one round reports). LeaveOutProofs.v: n non-empty test parts that make up n instances have one instance each (all_ones, folds_of_one); the rounds by induction (dummy_rounds), the mean by C35 (mean_of).
* **C158 The answer is a label with the highest reported probability** - MostModel.v: predictProbability of all classes behind one function (empty map where Model.h:24 is not overridden). MostSpec.v: most, ordinary, picks_most (contract of getMaxItem(labels) of Math), counting. MostProofs.v: every node of a trained or pruned tree stores the counts of a label list and its most frequent label (fair), and both functions walk to the same node; maxIndex and the loop over possible labels never leave a larger output behind, whatever the numbers (max_index_top, composite_leads).
* **C159 Averages, deviations and normalised values survive rounding** - RoundNormModel.v: average, deviation and normalised values of one continuous feature with a rounding after every operation and a square root on doubles; without rounding the sums are those of InstanceListModel and StatModel. RoundNormSpec.v: is_double, magnitude, root_of_squares. RoundNormProofs.v: sums of binary64 numbers have a relative error of at most 2^-53 each, also when subnormal (add_error); the errors of a running sum add up (sum_errors).
* **C160 What the saved file of a tree, forest or network says** - SavedSpec.v: the lines of a condition and of a tree, written down independently of the strings of SerialModel; unpruned: grown trees over words and numbers. SavedProofs.v: the line structure can be taken apart in one way only (tree_decides), and a plain query that ends in a leaf reads nothing that is not written (seen_answers).
* **C161 Choosing features commutes with what is done to lists of instances** - ChooseSpec.v: picks/reduced say when an instance or a list is a choice of another (C161_subset: exactly the results of getSubSetOfFeatures); moved says which feature went where; alike: both calls succeed with related results or fail in the same way. ChooseProofs.v: the operations proceed by the values of one feature and the labels, which the choice preserves.
* **C162 Naive Bayes and k-means judge every feature by itself** - ApartSpec.v: the part of a feature written down without the models (text_part, number_part, centre_part), their sum over a choice (parts), training on one feature only (only). ApartProofs.v: frequencies, values and means of the reduced sample are those of the full one at the chosen positions; the formulas of C103, C104 and the k-means formula of C125 then give the sums.
* **C163 Putting ensembles together** - TogetherSpec.v: the probability of a label in a returned map (chance), maps with the same probabilities (same_chances). TogetherProofs.v: the label with the most votes, ties to the smallest (leading of NearProofs.v), is kept when votes for it are put together; votes of joined, reordered and repeated lists of trees.
* **C164 Putting training data together** - UnionProofs.v: a stable sort of two lists puts an element after all earlier ones that are not larger, so the elements after the first k of a sorted part never come among the first k. UnionProps.v: the same for the neighbours of a query, by induction over the parts; counterexamples by computation.
* **C165 What repeating a cross validation does to summaries and tests** - SameFoldsProofs.v: sums, means and squared deviations of a list repeated several times (again of RepeatSpec.v), the growth of the t statistic, rounds repeated by a model that forgets. SameFoldsProps.v: with C57, C51, C52 and C54.
* **C166 The name of a list of instances** - GroupModel.v: lists with an optional name and the five divisions with names. GroupProofs.v: forgetting the names gives the divisions of PartitionModel.v. GroupProps.v: with C15 and C22.
* **C167 The solution of a two-class problem** - GroupModel.v: the object and the loop. GroupProofs.v: the loop by induction. GroupProps.v: the same result as solve_single of SvmModel.v.
* **C168 Leaving a class out of the training data, or adding one** - WithoutProofs.v: counters without a key, the search for the most frequent label and for the best score with and without one class, class means. WithoutProps.v: the models. SvmChampionProps.v: the class that beats every other class in the two-class problems of a support vector machine. ShiftProps.v: the search for the best score when all scores move by the same amount, and naive Bayes on texts and numbers, with a logarithm that turns products into sums (contract on the argument [ln]; C168_bayes_case gives a function that satisfies it). ShiftQdaProps.v: quadratic discriminants, and the counterexample for linear ones.

## Trusted base

### Kernel and axioms

* The Coq 8.16.1 kernel, including its `vm_compute` virtual machine.  No kernel check is switched off, no plugin is
  loaded, nothing is admitted and the development declares no axiom of its own.
* `Print Assumptions` of the 816 theorems of MANIFEST.json: 769 are closed under the global context.  The other 47 are
  about square roots, or quote the standard library's real numbers, and depend on axioms of the standard library only:
  * `ClassicalDedekindReals.sig_forall_dec`, `ClassicalDedekindReals.sig_not_dec` and
    `FunctionalExtensionality.functional_extensionality_dep`: `C19_standard_deviation`, `C19_shift_invariant`, `C19_scale`, `C19_single_is_nan`, `C20_diagonal`, `C35_standard_deviation`, `C35_standard_deviation_accuracy`, `C35_single_result`, `C44_normalize`, `C44_single`, `C46_root_triangle_partial`, `C52_partial`, `C52_five_by_two`, `C52_value_partial`, `C52_degrees_partial`, `C52_single_refuted`, `C52_degrees`, `C54_t_partial`, `C112_tests`, `C112_paired5x2t_refuted`, `C131_constant_refuted`, `C131_same_paired`, `C131_same_5x2`, `C131_same_combined`, `C138_deviation`, `C139_paired_t`, `C139_combined`, `C139_paired_5x2_t`, `C139_first_fold_refuted`, `C139_repetitions_refuted`, `C150_t`, `C150_t_monotone_refuted`, `C153_rescales`, `C153_units`, `C153_idempotent`, `C153_tree`, `C153_forest`, `C153_lda`, `C153_knn_refuted`, `C153_separately_refuted`, `C161_statistics`, `C161_normalise`, `C161_normalise_refuted`, `C165_deviation`, `C165_paired_t`, `C165_decision`;
  * these three and `Classical_Prop.classic`: `C104_posterior_refuted`.
* Every Props file ends with the `Print Assumptions` commands of its theorems, so the lists are printed by each build.

### The step from C++ to Gallina

The kernel checks the proofs about the model.  That the model is the program is a matter of reading; each definition
carries the lines it was read from.  What the reading takes for granted:

* Arithmetic on `double` is exact (rationals with infinities and NaN, one zero); comparisons are those of IEEE-754.
  Theorems are about exact arithmetic unless their statement names a `rounding` (RoundSpec.v; C129 onwards) or the
  standard library's binary64 `SpecFloat` (PartitionProps.v, TreeProps.v: for example C60_rounding_refuted); rounding can
  break what exact arithmetic keeps.
* `int` and `size_t` do not overflow, unless a comment at the definition says otherwise.
* Objects that are not mutated are values.  HeapModel.v (C106-C112) has a heap with addresses.  There `delete` through
  a base class without virtual destructor is read in two ways, chosen by the argument `strict`: `true` is undefined
  behaviour, as the standard has it; `false` is what the usual implementations do (run the destructor of the pointer's
  class, release the block).  Each theorem fixes the argument or holds for both.
* `std::` containers, `stable_sort` (the only sort the library calls), streams and strings follow the standard;
  `std::map` iterates in key order.
* The libraries of the same vendor (Math, Sampling, DataStructure, Util) are not in the repository.  Their containers are
  modelled by their documented behaviour; their random and numeric functions are arguments, and what is assumed of them
  is a hypothesis of the theorem that needs it.
* `exp`, `log`, `tanh` and the distribution tables are arguments as well; theorems assume of them what they name
  (monotone, positive, a homomorphism, ...).

### What is modelled

Per source file: the model files that cite it, and the functions no line of the development cites.  Those are
constructors that store their arguments, accessors (read as record fields), constructors that call a cited loader, and
the members listed under `what is not modelled`.

* `Attribute/BinaryAttribute.cpp` (2 functions): AttrModel; not cited: BinaryAttribute:15
* `Attribute/ContinuousAttribute.cpp` (6 functions): AttrModel, HeapModel; not cited: ContinuousAttribute:12
* `Attribute/DiscreteAttribute.cpp` (6 functions): AttrModel; not cited: DiscreteAttribute:12
* `Attribute/DiscreteIndexedAttribute.cpp` (5 functions): AttrModel; not cited: DiscreteIndexedAttribute:16
* `DataSet/DataDefinition.cpp` (12 functions): DataSetModel
* `DataSet/DataSet.cpp` (22 functions): DataSetModel, HeapModel, ReportModel; not cited: getInstances:282, getClassInstances:291, getInstanceList:300, getDataDefinition:309
* `DistanceMetric/EuclidianDistance.cpp` (1 functions): DistanceModel, RoundModel
* `DistanceMetric/MahalanobisDistance.cpp` (2 functions): DistanceModel; not cited: MahalanobisDistance:17
* `Experiment/BootstrapRun.cpp` (2 functions): ExperimentModel, LibModel
* `Experiment/Experiment.cpp` (5 functions): LibModel; not cited: getModel:23, getParameter:31, getDataSet:39
* `Experiment/KFoldRun.cpp` (2 functions): ExperimentModel, LibModel
* `Experiment/KFoldRunSeparateTest.cpp` (2 functions): ExperimentModel; not cited: KFoldRunSeparateTest:14
* `Experiment/MxKFoldRun.cpp` (2 functions): ExperimentModel, LibModel
* `Experiment/MxKFoldRunSeparateTest.cpp` (2 functions): ExperimentModel; not cited: MxKFoldRunSeparateTest:15
* `Experiment/SingleRunWithK.cpp` (2 functions): ExperimentModel; not cited: SingleRunWithK:13
* `Experiment/StratifiedKFoldRun.cpp` (2 functions): ExperimentModel, LibModel
* `Experiment/StratifiedKFoldRunSeparateTest.cpp` (2 functions): ExperimentModel; not cited: StratifiedKFoldRunSeparateTest:14
* `Experiment/StratifiedMxKFoldRun.cpp` (2 functions): ExperimentModel, LibModel
* `Experiment/StratifiedMxKFoldRunSeparateTest.cpp` (2 functions): ExperimentModel; not cited: StratifiedMxKFoldRunSeparateTest:14
* `Experiment/StratifiedSingleRunWithK.cpp` (2 functions): ExperimentModel; not cited: StratifiedSingleRunWithK:13
* `FeatureSelection/BackwardSelection.cpp` (2 functions): SelectionModel
* `FeatureSelection/FeatureSubSet.cpp` (8 functions): AttrModel, SelectionModel; not cited: FeatureSubSet:12, clone:37, size:47
* `FeatureSelection/FloatingSelection.cpp` (2 functions): SelectionModel
* `FeatureSelection/ForwardSelection.cpp` (2 functions): SelectionModel
* `FeatureSelection/SubSetSelection.cpp` (6 functions): SelectionModel; not cited: SubSetSelection:12, SubSetSelection:92, SubSetSelection:96
* `Filter/DiscreteToContinuous.cpp` (3 functions): FilterModel; not cited: DiscreteToContinuous:14
* `Filter/DiscreteToIndexed.cpp` (3 functions): FilterModel; not cited: DiscreteToIndexed:13
* `Filter/FeatureFilter.cpp` (2 functions): FilterModel, HeapModel; not cited: FeatureFilter:12
* `Filter/LaryFilter.cpp` (3 functions): FilterModel
* `Filter/LaryToBinary.cpp` (3 functions): FilterModel; not cited: LaryToBinary:13
* `Filter/Normalize.cpp` (3 functions): FilterModel, HeapModel, RoundNormModel; not cited: convertDataDefinition:35
* `Filter/Pca.cpp` (8 functions): FilterModel; not cited: Pca:16, Pca:27, Pca:37, removeUnnecessaryEigenvectors:46, removeAllEigenvectorsExceptTheMostImportantK:66, convertDataDefinition:110
* `Filter/TrainedFeatureFilter.cpp` (1 functions): GroupModel
* `Instance/CompositeInstance.cpp` (6 functions): AttrModel, HeapModel
* `Instance/Instance.cpp` (20 functions): AttrModel, HeapModel, SerialModel; not cited: getClassLabel:138
* `InstanceList/InstanceList.cpp` (32 functions): DataSetModel, GroupModel, HeapModel, InstanceListModel, RoundNormModel, SerialModel, StatModel; not cited: InstanceList:80, get:117, getInstances:233, clear:626
* `InstanceList/InstanceListOfSameClass.cpp` (2 functions): GroupModel
* `InstanceList/Partition.cpp` (9 functions): GroupModel, PartitionModel
* `Model/DecisionTree/DecisionCondition.cpp` (6 functions): SerialModel, TreeModel; not cited: getAttributeIndex:81
* `Model/DecisionTree/DecisionNode.cpp` (10 functions): HeapModel, RoundTreeModel, SerialModel, TreeModel; not cited: isLeaf:271, setLeaf:279, getChildren:287
* `Model/DecisionTree/DecisionStump.cpp` (2 functions): LibModel, SerialModel, TreeModel
* `Model/DecisionTree/DecisionTree.cpp` (10 functions): HeapModel, LibModel, MostModel, RoundModel, SerialModel, SoftModel, TreeModel; not cited: DecisionTree:83
* `Model/DecisionTree/SoftDecisionNode.cpp` (11 functions): HeapModel, SoftModel; not cited: kroneckerDelta:13, getRandomValue:17
* `Model/DecisionTree/SoftDecisionTree.cpp` (2 functions): HeapModel, LibModel, SoftModel
* `Model/DiscreteFeaturesNotAllowed.cpp` (1 functions): ReportModel
* `Model/DummyModel.cpp` (7 functions): EnsembleModel, LibModel, MostModel, SerialModel; not cited: DummyModel:44, loadModel:72
* `Model/Ensemble/BaggingModel.cpp` (2 functions): EnsembleModel, HeapModel, LibModel; not cited: loadModel:30
* `Model/Ensemble/RandomForestModel.cpp` (2 functions): EnsembleModel, HeapModel, LibModel; not cited: loadModel:27
* `Model/Ensemble/TreeEnsembleModel.cpp` (6 functions): EnsembleModel, HeapModel, MostModel, SerialModel; not cited: TreeEnsembleModel:44
* `Model/Model.cpp` (4 functions): ExperimentModel, InstanceListModel, LibModel, PerformanceModel, RoundModel
* `Model/NeuralNetwork/AutoEncoderModel.cpp` (7 functions): LibModel, NetModel, SerialModel; not cited: allocateWeights:19
* `Model/NeuralNetwork/DeepNetworkModel.cpp` (7 functions): LibModel, NetModel, SerialModel; not cited: setBestWeights:36, DeepNetworkModel:68
* `Model/NeuralNetwork/LinearPerceptronModel.cpp` (5 functions): LibModel, NetModel, SerialModel; not cited: LinearPerceptronModel:27
* `Model/NeuralNetwork/MultiLayerPerceptronModel.cpp` (6 functions): LibModel, NetModel, SerialModel; not cited: allocateWeights:19, MultiLayerPerceptronModel:38
* `Model/NeuralNetwork/NeuralNetworkModel.cpp` (15 functions): MostModel, NetModel, SerialModel; not cited: NeuralNetworkModel:180
* `Model/NonParametric/KnnInstance.cpp` (4 functions): ReportModel; not cited: getDistance:31, getInstance:35
* `Model/NonParametric/KnnModel.cpp` (9 functions): DistanceModel, LibModel, MostModel, SerialModel; not cited: KnnModel:19, knnInstanceComparator:43, KnnModel:85, loadModel:116
* `Model/Parametric/GaussianModel.cpp` (4 functions): GaussianModel, SerialModel; not cited: GaussianModel:59
* `Model/Parametric/KMeansModel.cpp` (5 functions): GaussianModel, LibModel, SerialModel; not cited: KMeansModel:43
* `Model/Parametric/LdaModel.cpp` (6 functions): GaussianModel, GroupModel, LibModel, SerialModel; not cited: LdaModel:59
* `Model/Parametric/NaiveBayesModel.cpp` (10 functions): GaussianModel, GroupModel, LibModel, SerialModel; not cited: NaiveBayesModel:90
* `Model/Parametric/QdaModel.cpp` (5 functions): GaussianModel, GroupModel, LibModel, SerialModel; not cited: QdaModel:44
* `Model/RandomModel.cpp` (8 functions): EnsembleModel, LibModel, MostModel, SerialModel; not cited: RandomModel:13, RandomModel:52, loadModel:83
* `Model/Svm/Kernel.cpp` (8 functions): SolverModel
* `Model/Svm/Node.cpp` (6 functions): SerialModel; not cited: Node:14, clone:24, getIndex:33, getValue:42
* `Model/Svm/NodeList.cpp` (7 functions): AttrModel, SerialModel; not cited: clone:31, get:71, size:80
* `Model/Svm/Problem.cpp` (5 functions): SolverModel; not cited: Problem:24, getL:38, getX:47, getY:56
* `Model/Svm/QMatrix.cpp` (3 functions): SolverModel
* `Model/Svm/SolutionInfo.cpp` (4 functions): GroupModel; not cited: SolutionInfo:13
* `Model/Svm/Solver.cpp` (12 functions): SolverModel; not cited: isUpperBound:184, isLowerBound:188, isFree:192, getQ:196
* `Model/Svm/SvmModel.cpp` (7 functions): GroupModel, LibModel, SerialModel, SvmModel
* `Model/ValidatedModel.cpp` (2 functions): NetModel, PerformanceModel, RoundModel; not cited: serialize:24
* `Parameter/BaggingParameter.cpp` (2 functions): LibModel
* `Parameter/C45Parameter.cpp` (3 functions): LibModel
* `Parameter/DeepNetworkParameter.cpp` (3 functions): LibModel
* `Parameter/KMeansParameter.cpp` (3 functions): LibModel
* `Parameter/KnnParameter.cpp` (3 functions): LibModel
* `Parameter/LinearPerceptronParameter.cpp` (4 functions): LibModel
* `Parameter/MultiLayerPerceptronParameter.cpp` (2 functions): LibModel
* `Parameter/Parameter.cpp` (2 functions): LibModel
* `Parameter/RandomForestParameter.cpp` (2 functions): LibModel
* `Parameter/SoftDecisionTreeParameter.cpp` (2 functions): LibModel
* `Parameter/SvmParameter.cpp` (7 functions): LibModel, SolverModel; not cited: getKernelType:31, getDegree:40, getGamma:49, getCoefficient0:58, getC:67, isShrinking:76
* `Performance/ClassificationAlgorithmExpectedException.cpp` (1 functions): ReportModel
* `Performance/ClassificationPerformance.cpp` (5 functions): PerformanceModel, RoundModel; not cited: getAccuracy:31, containsDetails:35, isClassification:39
* `Performance/ConfusionMatrix.cpp` (12 functions): HeapModel, PerformanceModel, RoundModel
* `Performance/DetailedClassificationPerformance.cpp` (3 functions): PerformanceModel, RoundModel; not cited: getConfusionMatrix:22, containsDetails:26
* `Performance/ExperimentPerformance.cpp` (11 functions): PerformanceModel, RoundModel, StatTestModel
* `Performance/Performance.cpp` (4 functions): PerformanceModel; not cited: getErrorRate:21, isClassification:25, containsDetails:29
* `StatisticalTest/Combined5x2f.cpp` (2 functions): HeapModel, RoundStatModel, StatTestModel
* `StatisticalTest/Combined5x2t.cpp` (2 functions): HeapModel, RoundStatModel, StatTestModel
* `StatisticalTest/Paired5x2t.cpp` (2 functions): HeapModel, RoundStatModel, StatTestModel
* `StatisticalTest/PairedTest.cpp` (1 functions): StatTestModel
* `StatisticalTest/Pairedt.cpp` (2 functions): HeapModel, RoundStatModel, StatTestModel
* `StatisticalTest/Sign.cpp` (3 functions): RoundStatModel, StatTestModel
* `StatisticalTest/StatisticalTestNotApplicable.cpp` (2 functions): ReportModel
* `StatisticalTest/StatisticalTestResult.cpp` (4 functions): RoundStatModel, StatTestModel; not cited: getPValue:70

### What is not modelled

* Rounding outside the functions repeated in RoundModel.v, RoundStatModel.v and RoundTreeModel.v; overflow of `int`, running out of memory, and speed.
* The text of exceptions other than those in ReportModel.v.
* Aliasing between the caller's objects and the library's beyond what C106-C112 say.
* Locales, failing disks: files are character sequences, a missing file is an empty failing stream.
* Concurrency: the library uses none.
