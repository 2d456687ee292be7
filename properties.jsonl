{"id": "C01", "title": "Attribute kinds are exclusive and vector sizes agree", "statement": "Every attribute answers true to exactly one of isDiscrete/isContinuous/isDiscreteIndexed/isBinary, and continuousAttributeSize() equals the length of continuousAttributes(), for a single attribute and for a whole instance.", "quantifier": "every attribute of every kind with any value, index and maxIndex; every instance with any list of attributes", "why_tests_cant": "a test only samples a few inputs; the claim is about every one of them", "anchors": ["src/Attribute/*.h", "src/Attribute/DiscreteIndexedAttribute.cpp:continuousAttributes", "src/Instance/Instance.cpp:continuousAttributeSize,continuousAttributes"]}
{"id": "C02", "title": "Indexed attributes are one-hot encoded", "statement": "The numeric encoding of an indexed attribute has length maxIndex; if 0<=index<maxIndex it holds a single 1 at position index and 0 elsewhere; for any other index (including -1, 'unknown') it is all zeros.", "quantifier": "every index and every non-negative maxIndex", "why_tests_cant": "a test only samples a few inputs; the claim is about every one of them", "anchors": ["src/Attribute/DiscreteIndexedAttribute.cpp:continuousAttributes"]}
{"id": "C03", "title": "Sparse and dense vectors of an instance agree", "statement": "The sparse node list of an instance lists exactly the non-zero positions of its dense vector in increasing order, and the dot product of two node lists equals the dot product of the dense vectors.", "quantifier": "every pair of dense vectors of any lengths (missing positions count as 0)", "why_tests_cant": "a test only samples a few inputs; the claim is about every one of them", "anchors": ["src/Instance/Instance.cpp:toNodeList", "src/Model/Svm/NodeList.cpp:NodeList,dot"]}
{"id": "C04", "title": "Feature subset of an instance is a projection", "statement": "getSubSetOfFeatures keeps the class label and selects exactly the attributes named by the index list in that order; it throws out_of_range exactly when some index is outside the instance, and never changes the source instance. (The result of a composite instance must still offer its possible labels.)", "quantifier": "every instance, every index list (repetitions and any order allowed)", "why_tests_cant": "a test only samples a few inputs; the claim is about every one of them", "anchors": ["src/Instance/Instance.cpp:getSubSetOfFeatures", "src/FeatureSelection/FeatureSubSet.cpp"]}
{"id": "C05", "title": "Composite instance label set", "statement": "Setting the possible class labels of a composite instance makes getPossibleClassLabels return exactly the labels given, whatever was set before.", "quantifier": "every composite instance and every sequence of setPossibleClassLabels calls", "why_tests_cant": "the claim ranges over unboundedly many operation histories; tests run a handful", "anchors": ["src/Instance/CompositeInstance.cpp:setPossibleClassLabels,getPossibleClassLabels"]}
{"id": "C06", "title": "Data set: stored instances conform to the definition", "statement": "After any sequence of addInstance calls that started from an empty data set, each stored instance's attributes have, position by position, the attribute types of the data set's definition.", "quantifier": "every sequence of instances offered to addInstance", "why_tests_cant": "the claim ranges over unboundedly many operation histories; tests run a handful", "anchors": ["src/DataSet/DataSet.cpp:addInstance,checkDefinition,setDefinition"]}
{"id": "C07", "title": "Data set: stored instances have the definition's arity", "statement": "Every instance stored through addInstance has exactly as many attributes as the definition.", "quantifier": "every sequence of instances offered to addInstance", "why_tests_cant": "the claim ranges over unboundedly many operation histories; tests run a handful", "anchors": ["src/DataSet/DataSet.cpp:addInstance,checkDefinition"]}
{"id": "C08", "title": "Data set: history of addInstance", "statement": "The stored instances are exactly the accepted ones in the order offered, rejected ones leave the data set unchanged, and once the definition has at least one attribute it is never changed by addInstance.", "quantifier": "every sequence of instances, from every starting data set", "why_tests_cant": "the claim ranges over unboundedly many operation histories; tests run a handful", "anchors": ["src/DataSet/DataSet.cpp:addInstance"]}
{"id": "C09", "title": "Data set: loading tolerates malformed lines", "statement": "Loading a comma separated file stores, in file order, one instance for each well formed line and nothing for lines with the wrong number of columns or with an unparsable number; every stored instance has the arity and types fixed by the first line.", "quantifier": "every file content (list of lines) with a non-empty first line", "why_tests_cant": "a test only samples a few inputs; the claim is about every one of them", "anchors": ["src/DataSet/DataSet.cpp:DataSet(ifstream)"]}
{"id": "C10", "title": "Data set: write then read round trip", "statement": "Writing a data set with writeToFile and loading the file gives back the same instances in the same order.", "quantifier": "every data set", "why_tests_cant": "a test only samples a few inputs; the claim is about every one of them", "anchors": ["src/DataSet/DataSet.cpp:writeToFile,DataSet(ifstream)", "src/Instance/Instance.cpp:to_string", "src/Attribute/DiscreteAttribute.cpp:to_string"]}
{"id": "C11", "title": "Data set: feature subset", "statement": "getSubSetOfFeatures of a data set has the same number of instances in the same order, each projected on the chosen features, and its definition has the types of the chosen features.", "quantifier": "every conforming data set and every list of valid feature indices", "why_tests_cant": "a test only samples a few inputs; the claim is about every one of them", "anchors": ["src/DataSet/DataSet.cpp:getSubSetOfFeatures", "src/DataSet/DataDefinition.cpp:getSubSetOfFeatures"]}
{"id": "C12", "title": "Attribute counting is complete", "statement": "discreteAttributeCount()+continuousAttributeCount() equals attributeCount(); adding or removing an attribute changes exactly one of the two by one.", "quantifier": "every data definition and every sequence of addAttribute/removeAttribute", "why_tests_cant": "the claim ranges over unboundedly many operation histories; tests run a handful", "anchors": ["src/DataSet/DataDefinition.cpp:discreteAttributeCount,continuousAttributeCount,addAttribute,removeAttribute"]}
{"id": "C13", "title": "Sorting by a feature", "statement": "sort(i) rearranges the instances (no loss, no duplication) into non-decreasing order of feature i, keeping the relative order of instances with equal values.", "quantifier": "every instance list whose feature i is numeric and not NaN", "why_tests_cant": "a test only samples a few inputs; the claim is about every one of them", "anchors": ["src/InstanceList/InstanceList.cpp:sort"]}
{"id": "C14", "title": "Sorting by class", "statement": "sort() is a stable rearrangement by class label, so each class becomes one contiguous block and blocks appear in label order.", "quantifier": "every instance list", "why_tests_cant": "a test only samples a few inputs; the claim is about every one of them", "anchors": ["src/InstanceList/InstanceList.cpp:sort()"]}
{"id": "C15", "title": "Distinct label and value lists", "statement": "getDistinctClassLabels, getAttributeValueList and getUnionOfPossibleClassLabels return each occurring label/value exactly once, nothing else, in order of first occurrence.", "quantifier": "every instance list", "why_tests_cant": "a test only samples a few inputs; the claim is about every one of them", "anchors": ["src/InstanceList/InstanceList.cpp:getDistinctClassLabels,getAttributeValueList,getUnionOfPossibleClassLabels"]}
{"id": "C16", "title": "Class distribution counts", "statement": "classDistribution gives every label its number of occurrences, sums to the list size and does not depend on the order of instances.", "quantifier": "every instance list and every permutation of it", "why_tests_cant": "a test only samples a few inputs; the claim is about every one of them", "anchors": ["src/InstanceList/InstanceList.cpp:classDistribution"]}
{"id": "C17", "title": "Attribute-by-class distributions are a contingency table", "statement": "attributeClassDistribution has one distribution per distinct value; entry (v,c) is the number of instances with value v and class c; the rows add up to classDistribution. discreteIndexedAttributeClassDistribution(i,k) counts the instances with index k and class c.", "quantifier": "every instance list with a discrete (indexed) feature i", "why_tests_cant": "a test only samples a few inputs; the claim is about every one of them", "anchors": ["src/InstanceList/InstanceList.cpp:attributeClassDistribution,discreteIndexedAttributeClassDistribution,attributeDistribution"]}
{"id": "C18", "title": "Averages", "statement": "The average of a continuous feature times n is the sum of its values, lies between smallest and largest value and does not depend on instance order; the average of a discrete feature is a most frequent value; for indexed features the averages are the value frequencies and sum to one.", "quantifier": "every non-empty instance list of uniform finite attributes", "why_tests_cant": "a test only samples a few inputs; the claim is about every one of them", "anchors": ["src/InstanceList/InstanceList.cpp:attributeAverage,continuousAttributeAverage,average"]}
{"id": "C19", "title": "Standard deviation", "statement": "The standard deviation of a continuous feature is a non-negative number whose square times (n-1) is the sum of squared deviations; it is zero exactly for constant features, unchanged by shifting all values, scaled by |a| when values are scaled; with one instance it is not a number.", "quantifier": "every instance list with finite values", "why_tests_cant": "a test only samples a few inputs; the claim is about every one of them", "anchors": ["src/InstanceList/InstanceList.cpp:attributeStandardDeviation,continuousAttributeStandardDeviation"]}
{"id": "C20", "title": "Covariance matrix", "statement": "covariance() is symmetric, positive semi-definite, and its diagonal holds the squared standard deviations.", "quantifier": "every instance list with n>=2 and uniform vectors, every coefficient vector", "why_tests_cant": "a test only samples a few inputs; the claim is about every one of them", "anchors": ["src/InstanceList/InstanceList.cpp:covariance"]}
{"id": "C21", "title": "Instance list save/load round trip", "statement": "Loading what serialize() wrote gives back the same instances.", "quantifier": "every instance list", "why_tests_cant": "a test only samples a few inputs; the claim is about every one of them", "anchors": ["src/InstanceList/InstanceList.cpp:serialize,InstanceList(ifstream)", "src/Instance/Instance.cpp:serialize"]}
{"id": "C22", "title": "Partition by class", "statement": "The class partition has one group per distinct label, in first-occurrence order; group g holds exactly the instances of label g in original order.", "quantifier": "every instance list", "why_tests_cant": "a test only samples a few inputs; the claim is about every one of them", "anchors": ["src/InstanceList/Partition.cpp:Partition(list)"]}
{"id": "C23", "title": "Partition by discrete value", "statement": "The partition by a discrete feature has one non-empty group per distinct value and group v holds exactly the instances with value v, in order; the groups together are a permutation of the list.", "quantifier": "every instance list whose feature is discrete", "why_tests_cant": "a test only samples a few inputs; the claim is about every one of them", "anchors": ["src/InstanceList/Partition.cpp:Partition(list,attributeIndex)"]}
{"id": "C24", "title": "Partition by indexed value", "statement": "Group 0 holds exactly the instances with the given index, group 1 all others, both in original order.", "quantifier": "every instance list, feature and index", "why_tests_cant": "a test only samples a few inputs; the claim is about every one of them", "anchors": ["src/InstanceList/Partition.cpp:Partition(list,attributeIndex,attributeValue)"]}
{"id": "C25", "title": "Partition by threshold", "statement": "Group 0 holds exactly the instances with value <= threshold, group 1 all others (NaN included), both in original order; nothing is lost.", "quantifier": "every instance list, feature and threshold, NaN and infinities included", "why_tests_cant": "a test only samples a few inputs; the claim is about every one of them", "anchors": ["src/InstanceList/Partition.cpp:Partition(list,attributeIndex,splitValue)"]}
{"id": "C26", "title": "Random split sizes", "statement": "The non-stratified random split is a permutation of the list cut in two: the first group has min(n, ceil(n*ratio)) instances; the argument list itself is left as a permutation of its old contents.", "quantifier": "every list, ratio, seed and shuffle function that permutes", "why_tests_cant": "a test only samples a few inputs; the claim is about every one of them", "anchors": ["src/InstanceList/Partition.cpp:Partition(list,ratio,seed,stratified)"]}
{"id": "C27", "title": "Stratified split keeps class proportions", "statement": "In the stratified split each class c with n_c instances contributes exactly min(n_c, ceil(n_c*ratio)) instances to the first group and the rest to the second; the argument list is unchanged.", "quantifier": "every list, ratio, seed and index permutation", "why_tests_cant": "a test only samples a few inputs; the claim is about every one of them", "anchors": ["src/InstanceList/Partition.cpp:Partition(list,ratio,seed,stratified)"]}
{"id": "C28", "title": "Tree conditions agree with the partition that created the child", "statement": "An instance is put in a child's training data exactly when it satisfies the child's condition and no earlier child's condition, so a training instance is always routed to the child that was trained on it.", "quantifier": "every data set and every kind of split, values not NaN", "why_tests_cant": "a test only samples a few inputs; the claim is about every one of them", "anchors": ["src/Model/DecisionTree/DecisionCondition.cpp:satisfy", "src/Model/DecisionTree/DecisionNode.cpp:createChildren*"]}
{"id": "C29", "title": "Confusion matrix counts", "statement": "After any sequence of classify(actual,predicted) calls the matrix entry (a,p) is the number of times that pair was classified.", "quantifier": "every sequence of classify calls", "why_tests_cant": "the claim ranges over unboundedly many operation histories; tests run a handful", "anchors": ["src/Performance/ConfusionMatrix.cpp:classify"]}
{"id": "C30", "title": "Accuracy", "statement": "Accuracy is the fraction of classify calls with equal labels, lies in [0,1], is 1 exactly if all were correct and is not a number exactly if nothing was classified; error rate is 1-accuracy.", "quantifier": "every sequence of classify calls", "why_tests_cant": "the claim ranges over unboundedly many operation histories; tests run a handful", "anchors": ["src/Performance/ConfusionMatrix.cpp:getAccuracy", "src/Performance/ClassificationPerformance.cpp"]}
{"id": "C31", "title": "Merging confusion matrices", "statement": "Adding confusion matrices gives the same counts as classifying all the pairs in one matrix, in any order of merging.", "quantifier": "every two (or more) histories", "why_tests_cant": "the claim ranges over unboundedly many operation histories; tests run a handful", "anchors": ["src/Performance/ConfusionMatrix.cpp:addConfusionMatrix", "src/Performance/ExperimentPerformance.cpp:meanDetailedPerformance"]}
{"id": "C32", "title": "Precision, recall, F-measure", "statement": "For a label that was classified, recall is TP/row total, precision TP/column total; both lie in [0,1] when defined; F is their harmonic mean, lies between them, and is 0 when there are no true positives but the label was predicted.", "quantifier": "every history and every label with at least one actual occurrence", "why_tests_cant": "the claim ranges over unboundedly many operation histories; tests run a handful", "anchors": ["src/Performance/ConfusionMatrix.cpp:precision,recall,fMeasure"]}
{"id": "C33", "title": "Weighted F-measure", "statement": "Weighted F-measure is the average of the per-label F-measures weighted by the label's number of occurrences and lies in [0,1].", "quantifier": "every history in which every declared label occurs and is predicted", "why_tests_cant": "the claim ranges over unboundedly many operation histories; tests run a handful", "anchors": ["src/Performance/ConfusionMatrix.cpp:weightedFMeasure"]}
{"id": "C34", "title": "Per-label reports are defined for every declared label", "statement": "precision/recall/fMeasure/weightedFMeasure return a defined value for every class label the matrix was built with.", "quantifier": "every label list and history", "why_tests_cant": "the claim ranges over unboundedly many operation histories; tests run a handful", "anchors": ["src/Performance/ConfusionMatrix.cpp:precision,recall,fMeasure,weightedFMeasure"]}
{"id": "C35", "title": "Experiment means", "statement": "The mean error (accuracy) of an experiment is the arithmetic mean of the added results, independent of the order they were added; the standard deviation is the sample standard deviation of them.", "quantifier": "every sequence of added performances", "why_tests_cant": "the claim ranges over unboundedly many operation histories; tests run a handful", "anchors": ["src/Performance/ExperimentPerformance.cpp:meanPerformance,meanClassificationPerformance,standardDeviation*"]}
{"id": "C36", "title": "isBetter is a strict order", "statement": "isBetter is irreflexive, asymmetric, transitive (and negatively transitive) on experiments that have at least one classification result; otherwise it dereferences a null pointer.", "quantifier": "every pair/triple of experiment results", "why_tests_cant": "a test only samples a few inputs; the claim is about every one of them", "anchors": ["src/Performance/ExperimentPerformance.cpp:isBetter"]}
{"id": "C37", "title": "Feature selection terminates", "statement": "Forward, backward and floating selection stop after finitely many evaluations on every data set and whatever the experiment results are.", "quantifier": "every number of features and every evaluation function", "why_tests_cant": "the claim ranges over unboundedly many operation histories; tests run a handful", "anchors": ["src/FeatureSelection/SubSetSelection.cpp:execute", "src/FeatureSelection/*Selection.cpp"]}
{"id": "C38", "title": "Feature selection returns a local optimum", "statement": "The returned subset is at least as good as every subset that was evaluated, and as each of its evaluated neighbours; no neighbour of the result is strictly better.", "quantifier": "every number of features and every evaluation function", "why_tests_cant": "a test only samples a few inputs; the claim is about every one of them", "anchors": ["src/FeatureSelection/SubSetSelection.cpp:execute"]}
{"id": "C39", "title": "Feature selection never evaluates a subset twice", "statement": "No feature subset is evaluated twice, every evaluated subset is non-empty, free of duplicates and within range.", "quantifier": "every run", "why_tests_cant": "the claim ranges over unboundedly many operation histories; tests run a handful", "anchors": ["src/FeatureSelection/SubSetSelection.cpp:execute,forward,backward"]}
{"id": "C40", "title": "Neighbourhood operators", "statement": "forward yields exactly the subsets with one absent feature added, backward exactly the subsets with one present feature removed, each once; the current subset is not modified.", "quantifier": "every subset and number of features", "why_tests_cant": "a test only samples a few inputs; the claim is about every one of them", "anchors": ["src/FeatureSelection/SubSetSelection.cpp:forward,backward", "src/FeatureSelection/FeatureSubSet.cpp"]}
{"id": "C41", "title": "Discrete to numeric filters", "statement": "DiscreteToContinuous and LaryToBinary replace each discrete feature by one indicator per known value (exactly one indicator set for a known value), keep other features and the label, and give all instances the same arity; DiscreteToIndexed stores the position of the value.", "quantifier": "every data set and every instance whose values were all seen when the filter was built", "why_tests_cant": "a test only samples a few inputs; the claim is about every one of them", "anchors": ["src/Filter/DiscreteToContinuous.cpp", "src/Filter/LaryToBinary.cpp", "src/Filter/DiscreteToIndexed.cpp", "src/Filter/LaryFilter.cpp"]}
{"id": "C42", "title": "Filters encode every value that occurs", "statement": "Every value occurring in the data used to build the filter is encoded by exactly one set indicator (a valid index), whatever the string.", "quantifier": "every data set", "why_tests_cant": "a test only samples a few inputs; the claim is about every one of them", "anchors": ["src/Filter/DiscreteToContinuous.cpp:convertInstance", "src/Attribute/DiscreteAttribute.cpp:to_string"]}
{"id": "C43", "title": "Filters keep the data definition in step", "statement": "After convert() the data set's definition describes the converted instances.", "quantifier": "every data set and every filter", "why_tests_cant": "a test only samples a few inputs; the claim is about every one of them", "anchors": ["src/Filter/FeatureFilter.cpp:convert", "src/Filter/*:convertDataDefinition", "src/DataSet/DataSet.cpp:getDataDefinition"]}
{"id": "C44", "title": "Normalisation", "statement": "After Normalize every non-constant continuous feature has mean 0 and standard deviation 1; discrete features and labels are unchanged; constant features become not-a-number.", "quantifier": "every data set with finite values", "why_tests_cant": "a test only samples a few inputs; the claim is about every one of them", "anchors": ["src/Filter/Normalize.cpp"]}
{"id": "C45", "title": "Euclidean distance basics", "statement": "The Euclidean distance of instances with the same feature kinds is symmetric, non-negative, zero for an instance to itself, and throws when the second instance is shorter.", "quantifier": "every two instances", "why_tests_cant": "a test only samples a few inputs; the claim is about every one of them", "anchors": ["src/DistanceMetric/EuclidianDistance.cpp"]}
{"id": "C46", "title": "Euclidean distance is a metric", "statement": "The distance satisfies the triangle inequality and separates different instances.", "quantifier": "every three instances", "why_tests_cant": "a test only samples a few inputs; the claim is about every one of them", "anchors": ["src/DistanceMetric/EuclidianDistance.cpp"]}
{"id": "C47", "title": "k nearest neighbours", "statement": "nearestNeighbors returns min(k, number of eligible instances) training instances, sorted by distance, and no eligible instance left out is closer than one returned; ties are resolved in training order.", "quantifier": "every training set, query, k and distance function", "why_tests_cant": "a test only samples a few inputs; the claim is about every one of them", "anchors": ["src/Model/NonParametric/KnnModel.cpp:nearestNeighbors", "src/Model/NonParametric/KnnInstance.cpp"]}
{"id": "C48", "title": "k-NN prediction", "statement": "The prediction is a most frequent label among the k nearest neighbours; for a composite query it is one of the possible labels.", "quantifier": "every training set, query and k", "why_tests_cant": "a test only samples a few inputs; the claim is about every one of them", "anchors": ["src/Model/NonParametric/KnnModel.cpp:predict"]}
{"id": "C49", "title": "Gaussian-type prediction maximises the metric", "statement": "LDA/QDA/NaiveBayes/KMeans predict a label whose metric is maximal among the candidate labels; the first such candidate wins; for composite queries the answer is one of the possible labels.", "quantifier": "every metric function, prior and query", "why_tests_cant": "a test only samples a few inputs; the claim is about every one of them", "anchors": ["src/Model/Parametric/GaussianModel.cpp:predict"]}
{"id": "C50", "title": "Retraining forgets the previous data", "statement": "Training a model on D2 after training it on D1 gives the same model as training a fresh one on D2.", "quantifier": "every pair of training sets and every model kind", "why_tests_cant": "the claim ranges over unboundedly many operation histories; tests run a handful", "anchors": ["src/Model/Parametric/LdaModel.cpp:train", "src/Model/Parametric/QdaModel.cpp:train", "src/Model/Parametric/NaiveBayesModel.cpp", "src/Model/Ensemble/*.cpp", "src/Model/Svm/SvmModel.cpp:train", "src/Model/NeuralNetwork/DeepNetworkModel.cpp:train", "src/Model/NonParametric/KnnModel.cpp:train", "src/Model/DummyModel.cpp:train", "src/Model/RandomModel.cpp:train", "src/Model/Parametric/KMeansModel.cpp:train"]}
{"id": "C51", "title": "Sign test p-value", "statement": "The sign test's p-value is the probability of at most 'plus' heads in n fair coin tosses (ties dropped), lies in (0,1], is non-decreasing in plus; it is refused when there is no untied pair.", "quantifier": "every pair of result lists", "why_tests_cant": "a test only samples a few inputs; the claim is about every one of them", "anchors": ["src/StatisticalTest/Sign.cpp"]}
{"id": "C52", "title": "Paired t test is antisymmetric", "statement": "Exchanging the two experiments negates the paired t statistic and keeps the degrees of freedom; identical lists are refused.", "quantifier": "every pair of equally long result lists", "why_tests_cant": "a test only samples a few inputs; the claim is about every one of them", "anchors": ["src/StatisticalTest/Pairedt.cpp", "src/StatisticalTest/Paired5x2t.cpp", "src/StatisticalTest/Combined5x2t.cpp"]}
{"id": "C53", "title": "Combined 5x2 F test", "statement": "The combined F statistic is unchanged by exchanging the experiments, non-negative, and refused unless both have exactly ten results.", "quantifier": "every pair of result lists", "why_tests_cant": "a test only samples a few inputs; the claim is about every one of them", "anchors": ["src/StatisticalTest/Combined5x2f.cpp"]}
{"id": "C54", "title": "compare() decides by significance", "statement": "compare(classifier1,classifier2,alpha) returns 1, -1 or 0 according to which one-tailed test rejects; it never reports both and is reversed by swapping the arguments when alpha <= 1/2; a larger alpha keeps an equal-sign decision.", "quantifier": "every pair of experiments, alpha and every test whose two p-values add to one", "why_tests_cant": "a test only samples a few inputs; the claim is about every one of them", "anchors": ["src/StatisticalTest/PairedTest.cpp:compare", "src/StatisticalTest/StatisticalTestResult.cpp"]}
{"id": "C55", "title": "Test result tails", "statement": "oneTailed/twoTailed reject exactly when the (two-sided) p-value is below the level; a rejection at some level is kept at every larger level.", "quantifier": "every p-value and level", "why_tests_cant": "a test only samples a few inputs; the claim is about every one of them", "anchors": ["src/StatisticalTest/StatisticalTestResult.cpp"]}
{"id": "C56", "title": "K-fold experiments", "statement": "A K-fold run performs exactly K train/test rounds; in each the test fold and the training data are disjoint and together are the data set; over the run every instance is tested exactly once.", "quantifier": "every data set, K and model, every fold provider meeting its contract", "why_tests_cant": "a test only samples a few inputs; the claim is about every one of them", "anchors": ["src/Experiment/KFoldRun.cpp", "src/Experiment/StratifiedKFoldRun.cpp"]}
{"id": "C57", "title": "Repetitions of MxK fold runs differ", "statement": "The M repetitions of an MxK-fold run use different random folds.", "quantifier": "every M, K, seed and data set", "why_tests_cant": "a test only samples a few inputs; the claim is about every one of them", "anchors": ["src/Experiment/MxKFoldRun.cpp", "src/Experiment/StratifiedMxKFoldRun.cpp", "src/Experiment/*SeparateTest.cpp"]}
{"id": "C58", "title": "Separate test set is never trained on", "statement": "In SeparateTest experiments the held-out quarter is used for testing only: no training set of any round shares a position with it.", "quantifier": "every data set, K, M and seed", "why_tests_cant": "a test only samples a few inputs; the claim is about every one of them", "anchors": ["src/Experiment/KFoldRunSeparateTest.cpp", "src/Experiment/MxKFoldRunSeparateTest.cpp", "src/Experiment/Stratified*SeparateTest.cpp"]}
{"id": "C59", "title": "Bootstrap runs", "statement": "A bootstrap run performs exactly the requested number of rounds with pairwise different seeds, tests each on the full data set and trains on resampled members of it.", "quantifier": "every number of runs, seed and data set", "why_tests_cant": "a test only samples a few inputs; the claim is about every one of them", "anchors": ["src/Experiment/BootstrapRun.cpp"]}
{"id": "C60", "title": "Decision tree construction terminates", "statement": "Building a decision tree finishes on every non-empty training set: every split sends strictly fewer instances to each child.", "quantifier": "every training set (exact arithmetic; machine rounding refuted)", "why_tests_cant": "a test only samples a few inputs; the claim is about every one of them", "anchors": ["src/Model/DecisionTree/DecisionNode.cpp:DecisionNode(data,...)"]}
{"id": "C61", "title": "Tree predictions are known labels", "statement": "A tree predicts a label that occurs in its training data; for a composite instance with at least one possible label it predicts one of the possible labels.", "quantifier": "every tree built from non-empty data and every instance", "why_tests_cant": "a test only samples a few inputs; the claim is about every one of them", "anchors": ["src/Model/DecisionTree/DecisionNode.cpp:predict", "src/Model/DecisionTree/DecisionTree.cpp:predict"]}
{"id": "C62", "title": "A tree fits its training data at least as well as the majority class", "statement": "The number of training instances an unpruned tree classifies correctly is at least the count of the most frequent class.", "quantifier": "every training set", "why_tests_cant": "a test only samples a few inputs; the claim is about every one of them", "anchors": ["src/Model/DecisionTree/DecisionNode.cpp"]}
{"id": "C63", "title": "Pruning never hurts on the pruning set", "statement": "Accuracy on the pruning set after prune() is at least the accuracy before; pruning only turns inner nodes into leaves.", "quantifier": "every tree and pruning set", "why_tests_cant": "a test only samples a few inputs; the claim is about every one of them", "anchors": ["src/Model/DecisionTree/DecisionTree.cpp:prune,pruneNode"]}
{"id": "C64", "title": "Decision stumps have depth at most one", "statement": "A decision stump tests at most one feature: all children of the root are leaves.", "quantifier": "every training set", "why_tests_cant": "a test only samples a few inputs; the claim is about every one of them", "anchors": ["src/Model/DecisionTree/DecisionStump.cpp:train", "src/Model/DecisionTree/DecisionNode.cpp"]}
{"id": "C65", "title": "Decision tree save/load round trip", "statement": "Loading a serialized tree gives a tree with the same predictions.", "quantifier": "every tree", "why_tests_cant": "a test only samples a few inputs; the claim is about every one of them", "anchors": ["src/Model/DecisionTree/DecisionNode.cpp:serialize,DecisionNode(ifstream)", "src/Model/DecisionTree/DecisionCondition.cpp:serialize,DecisionCondition(ifstream)"]}
{"id": "C66", "title": "Ensembles vote", "statement": "A tree ensemble (bagging, random forest) gives one vote to the label predicted by each of its trees. predict returns a label with the most votes; predictProbability returns the shares of the votes, which add up to one.", "quantifier": "every non-empty forest, every instance every tree can classify", "why_tests_cant": "the forest and the instance are arbitrary, and ties between labels only show up in combinations a test does not draw", "anchors": ["src/Model/Ensemble/TreeEnsembleModel.cpp:predict"]}
{"id": "C67", "title": "Model testing records every test instance once", "statement": "test() classifies each test instance exactly once and reports a confusion matrix whose counts are those of (label, prediction) pairs.", "quantifier": "every model and test set", "why_tests_cant": "a test only samples a few inputs; the claim is about every one of them", "anchors": ["src/Model/Model.cpp:test"]}
{"id": "C68", "title": "Most frequent label", "statement": "getMaximum returns a label whose number of occurrences is maximal.", "quantifier": "every non-empty label list", "why_tests_cant": "a test only samples a few inputs; the claim is about every one of them", "anchors": ["src/Model/Model.cpp:getMaximum"]}
{"id": "C69", "title": "SVM: kernels are symmetric and both implementations agree", "statement": "For every kernel type the training-time kernel on stored vectors (i,j) equals the prediction-time kernel of the two vectors, is symmetric, and follows index swaps.", "quantifier": "every list of node lists, every i,j, every swap history", "why_tests_cant": "the claim ranges over unboundedly many operation histories; tests run a handful", "anchors": ["src/Model/Svm/Kernel.cpp"]}
{"id": "C70", "title": "SVM solver keeps the constraints", "statement": "Every step of the solver keeps 0 <= alpha_i <= C and sum y_i alpha_i = 0, also when the curvature of the chosen pair is zero.", "quantifier": "every solver state, kernel matrix and working pair with a positive violation", "why_tests_cant": "the claim ranges over unboundedly many operation histories; tests run a handful", "anchors": ["src/Model/Svm/Solver.cpp:solve"]}
{"id": "C71", "title": "SVM solver bookkeeping follows the permutation", "statement": "Shrinking only permutes the problem: activeSet stays a permutation and all per-variable arrays are permuted alike. It sets aside exactly the samples at a bound that cannot form a violating pair, never the two that violate most; all samples are looked at again once, in the first shrinking in which these two violate by 0.01 or less.", "quantifier": "every sequence of swaps / shrink steps", "why_tests_cant": "the claim ranges over unboundedly many operation histories; tests run a handful", "anchors": ["src/Model/Svm/Solver.cpp:swapIndex,doShrinking"]}
{"id": "C72", "title": "SVM solver returns multipliers in the original order", "statement": "The returned alpha of training vector activeSet[i] is the value the solver computed for it.", "quantifier": "every final solver state", "why_tests_cant": "the claim ranges over unboundedly many operation histories; tests run a handful", "anchors": ["src/Model/Svm/Solver.cpp:solve"]}
{"id": "C73", "title": "SVM decision values", "statement": "After training, the decision value for classes i<j is sum over the training vectors of the two classes of their (signed) multipliers times kernel, minus rho of that pair.", "quantifier": "every training set, solver output and query", "why_tests_cant": "a test only samples a few inputs; the claim is about every one of them", "anchors": ["src/Model/Svm/SvmModel.cpp:train,groupClasses,predictValues"]}
{"id": "C74", "title": "SVM votes", "statement": "The predicted class wins the largest number of pairwise votes; the votes total c(c-1)/2; ties go to the smaller class index.", "quantifier": "every number of classes and decision values", "why_tests_cant": "a test only samples a few inputs; the claim is about every one of them", "anchors": ["src/Model/Svm/SvmModel.cpp:predict"]}
{"id": "C75", "title": "Softmax outputs", "statement": "The normalised network output is a probability distribution that preserves the order of the raw outputs.", "quantifier": "every output vector", "why_tests_cant": "a test only samples a few inputs; the claim is about every one of them", "anchors": ["src/Model/NeuralNetwork/NeuralNetworkModel.cpp:normalizeOutput"]}
{"id": "C76", "title": "Network prediction", "statement": "A network predicts the label with the largest output; for composite instances the best among the possible labels (a possible label in any case).", "quantifier": "every output vector, label list and possible label list", "why_tests_cant": "a test only samples a few inputs; the claim is about every one of them", "anchors": ["src/Model/NeuralNetwork/NeuralNetworkModel.cpp:predict,predictWithCompositeInstance"]}
{"id": "C77", "title": "Networks keep the best epoch", "statement": "Training returns the weights of an epoch with maximal validation accuracy (the initial weights if no epoch has positive accuracy); the auto encoder those with minimal error.", "quantifier": "every number of epochs and every sequence of epoch results", "why_tests_cant": "the claim ranges over unboundedly many operation histories; tests run a handful", "anchors": ["src/Model/NeuralNetwork/LinearPerceptronModel.cpp:train", "src/Model/NeuralNetwork/MultiLayerPerceptronModel.cpp:train", "src/Model/NeuralNetwork/AutoEncoderModel.cpp:train"]}
{"id": "C78", "title": "predictProbability is a distribution", "statement": "predictProbability of a network returns non-negative numbers that sum to one.", "quantifier": "every network and instance", "why_tests_cant": "a test only samples a few inputs; the claim is about every one of them", "anchors": ["src/Model/NeuralNetwork/NeuralNetworkModel.cpp:predictProbability"]}
{"id": "C79", "title": "Deep network layers fit together", "statement": "Weight matrices allocated for a deep network chain: the input size of each layer is the output size of the previous one plus a bias, for every topology, and every training step updates every layer.", "quantifier": "every topology and activation function, every number of train calls", "why_tests_cant": "the claim ranges over unboundedly many operation histories; tests run a handful", "anchors": ["src/Model/NeuralNetwork/DeepNetworkModel.cpp:allocateWeights,calculateOutput,train"]}
{"id": "C80", "title": "Soft tree output is a convex combination", "statement": "The output of a soft decision tree for a class lies between the smallest and largest leaf response for that class, and the leaf weights sum to one.", "quantifier": "every soft tree and instance", "why_tests_cant": "The tree may have any depth and any real gates and responses; a sampled output inside the bounds says nothing about other trees, and a sign error in one gate only shows for some instances.", "anchors": ["src/Model/DecisionTree/SoftDecisionNode.cpp:calculateOutput"]}
{"id": "C81", "title": "Soft tree growth never increases validation error", "statement": "A split is kept only if it strictly reduces the number of validation errors, in the form of the best of the eleven trained candidates; a rejected split leaves a tree that answers as before; growing therefore ends after at most as many splits as there are validation errors; every node is tried exactly once: the leaves of the trained tree are the nodes whose split was rejected, its inner nodes those whose split was kept.", "quantifier": "every soft tree, data and gradient result", "why_tests_cant": "Which candidates arise depends on the random start and on the data; restoring the node after a rejected candidate must be exact for every one of them, and termination is about every run.", "anchors": ["src/Model/DecisionTree/SoftDecisionNode.cpp:findBestSoftDecisionTreeSplit", "src/Model/DecisionTree/SoftDecisionNode.cpp:createSoftDecisionTree"]}
{"id": "C82", "title": "Model save/load round trips", "statement": "Loading a saved SVM / network / ensemble / random / LDA / QDA / naive Bayes model gives a model with the same behaviour.", "quantifier": "every model", "why_tests_cant": "a test only samples a few inputs; the claim is about every one of them", "anchors": ["src/Model/**:serialize,load"]}
{"id": "C83", "title": "Reading a file with a declared definition", "statement": "Constructing an InstanceList from a DataDefinition, a separator and a file stores, in order, one instance per line that has one column per declared attribute plus the label, each column read as its declared type, and skips the other lines.", "quantifier": "every definition, separator and file content", "why_tests_cant": "a file can have any number of lines with any mix of well formed and malformed columns; a test fixes one file", "anchors": ["src/InstanceList/InstanceList.cpp:InstanceList(DataDefinition,string,string)"]}
{"id": "C84", "title": "Value lists of a data definition", "statement": "featureValueIndex returns the position of the first occurrence of the value in the declared list, -1 when it is not listed, and numberOfValues its length; for a definition without value lists both are undefined.", "quantifier": "every definition, attribute index and value", "why_tests_cant": "the index must be right for every list and every (possibly repeated or unknown) value", "anchors": ["src/DataSet/DataDefinition.cpp:featureValueIndex,numberOfValues"]}
{"id": "C85", "title": "Experiment results from a file", "statement": "Reading experiment results from a text with one number per line gives exactly those error rates in order; a text ending in a newline makes the reader throw invalid_argument, and asking the loaded experiment for its mean accuracy is undefined behaviour because the stored results are not classification results.", "quantifier": "every list of lines that parse as numbers", "why_tests_cant": "Whether the reader copies every line and how it ends depends on the number of lines and on the last character; sample files cover a few lengths only.", "anchors": ["src/Performance/ExperimentPerformance.cpp:ExperimentPerformance(fileName)", "src/Performance/ExperimentPerformance.cpp:meanClassificationPerformance"]}
{"id": "C86", "title": "Principal components", "statement": "After Pca with k dimensions every instance keeps its label and has exactly k continuous features, the projections of its numbers on the k leading eigenvectors of the covariance matrix; without k the filter keeps the leading eigenvectors that explain the requested share of the variance.", "quantifier": "every data set of numeric features with at least two instances, every k and every requested share", "why_tests_cant": "the undefined iterator in the share-based path may happen to work under one compiler and input, and the projection must be right for every data set, not the few a test projects", "anchors": ["src/Filter/Pca.cpp:removeUnnecessaryEigenvectors", "src/Filter/Pca.cpp:train", "src/Filter/Pca.cpp:convertInstance"]}
{"id": "C87", "title": "Bagging trains on bootstrap samples", "statement": "Training a bagging or forest model with size n on a non-empty tabular data set yields exactly n trees, each grown on a sample of the data of the same size (drawn with replacement), and the trained model answers every instance of the same shape with a training label.", "quantifier": "every tabular data set, ensemble size, tree parameters and every outcome of the random draws", "why_tests_cant": "the draws are random: a test sees a few of the samples, and tree growth on samples with repeated or missing classes hits corner cases rarely", "anchors": ["src/Model/Ensemble/BaggingModel.cpp:train", "src/Model/Ensemble/RandomForestModel.cpp:train", "src/Model/Ensemble/TreeEnsembleModel.cpp:predict"]}
{"id": "C88", "title": "Dummy model", "statement": "After training, the dummy model predicts a most frequent training label (for a composite instance: a most frequent one among its possible labels), independently of the attributes, and its probabilities are the class frequencies.", "quantifier": "every non-empty training set and every instance", "why_tests_cant": "the claim is about all training sets and label multiplicities including ties", "anchors": ["src/Model/DummyModel.cpp:predict", "src/Model/DummyModel.cpp:train"]}
{"id": "C89", "title": "Random model", "statement": "The random model always predicts a known label (for a composite instance: one of its possible labels), can predict each of them, and its probabilities are uniform and add up to one.", "quantifier": "every training set, instance and random number", "why_tests_cant": "the predicted label is random, so a test cannot show that no draw leaves the label set nor that every label can be reached", "anchors": ["src/Model/RandomModel.cpp:predict", "src/Model/RandomModel.cpp:predictProbability", "src/Model/RandomModel.cpp:train"]}
{"id": "C90", "title": "Random forest attribute subset", "statement": "Every split of every tree of a random forest tests only one of the m attributes drawn from the forest's seed; the subset is the same for all nodes and all trees.", "quantifier": "every tabular data set, ensemble size, subset size smaller than the number of attributes, seed", "why_tests_cant": "it is a claim about every node of unboundedly many trees", "anchors": ["src/Model/DecisionTree/DecisionNode.cpp", "src/Parameter/RandomForestParameter.cpp"]}
{"id": "C91", "title": "SVM solver safety and stopping", "statement": "On finite data and positive penalty, the two-class solver never reads outside its arrays or throws, the only alternative to a result being that it does not stop; from every state it can reach, one more iteration is possible; and it stops only in a state whose multipliers satisfy the optimality (KKT) conditions up to 0.001 and whose margins are right up to that tolerance.", "quantifier": "every set of vectors and labels, kernel, penalty, and number of iterations", "why_tests_cant": "the solver's arrays are permuted and shrunk along histories of unbounded length; tests see a handful of them, and an out-of-range read rarely shows", "anchors": ["src/Model/Svm/Solver.cpp:solve", "src/Model/Svm/Solver.cpp:selectWorkingSet", "src/Model/Svm/Solver.cpp:doShrinking"]}
{"id": "C92", "title": "Every SVM solver step lowers the objective", "statement": "Every iteration of the two-class solver that changes the multipliers strictly lowers the dual objective, and the new multipliers differ from the old ones in two examples.", "quantifier": "every reachable solver state, kernel and penalty", "why_tests_cant": "it is a statement about every step of every run; a step that does not descend only shows as a slower or endless run", "anchors": ["src/Model/Svm/Solver.cpp:solve"]}
{"id": "C93", "title": "SVM solver result is near the optimum", "statement": "When the kernel matrix is positive semidefinite (always for the linear kernel), the multipliers with which the solver stops have a dual objective within 0.001 times the penalty times the number of examples of every feasible choice.", "quantifier": "every training problem whose kernel is positive semidefinite, every feasible competitor", "why_tests_cant": "the competitor ranges over a continuum, and the true optimum is unknown to a test", "anchors": ["src/Model/Svm/Solver.cpp:solve"]}
{"id": "C94", "title": "Predictions do not depend on history", "statement": "What a trained network predicts for an instance does not depend on which instances it was asked about before.", "quantifier": "every network, instance and history of earlier predictions", "why_tests_cant": "predict mutates a hidden output buffer; a test sees the dependence only if it happens to interleave the right calls", "anchors": ["src/Model/NeuralNetwork/NeuralNetworkModel.cpp:predict", "src/Model/NeuralNetwork/LinearPerceptronModel.cpp:calculateOutput", "src/Model/NeuralNetwork/DeepNetworkModel.cpp:calculateOutput"]}
{"id": "C95", "title": "A training step follows the gradient", "statement": "Each training step of the linear, multilayer and deep perceptron adds learning rate times the gradient of the log-likelihood of the instance's class to the weights; of the auto encoder, minus the gradient of half the squared reconstruction error.", "quantifier": "every weight assignment, instance, learning rate, topology and activation function", "why_tests_cant": "a wrong derivative still learns something; tests on accuracy do not see it, and the weights are a continuum", "anchors": ["src/Model/NeuralNetwork/LinearPerceptronModel.cpp", "src/Model/NeuralNetwork/MultiLayerPerceptronModel.cpp", "src/Model/NeuralNetwork/DeepNetworkModel.cpp", "src/Model/NeuralNetwork/AutoEncoderModel.cpp"]}
{"id": "C96", "title": "A soft tree training step follows the gradient", "statement": "One training step of a soft decision tree node adds learning rate times the gradient of the log-likelihood of the instance's class, plus the momentum term, to the responses of its two leaves and to its gate.", "quantifier": "every tree, node, instance, learning rate and momentum", "why_tests_cant": "A wrong gradient still changes the error somehow; tests on accuracy do not see it, and the parameters are a continuum.", "anchors": ["src/Model/DecisionTree/SoftDecisionNode.cpp:gradientDescentSoftDecisionTree"]}
{"id": "C97", "title": "A soft tree can be trained and asked", "statement": "Training a soft decision tree on continuous data succeeds and gives a tree with one response per class at every leaf, and the trained tree answers predict and predictProbability.", "quantifier": "every list of instances with continuous features, every split ratio and random source", "why_tests_cant": "Whether every class is left in the training part depends on the class sizes and the ratio; the out of bounds read it causes may go unnoticed in a test.", "anchors": ["src/Model/DecisionTree/SoftDecisionTree.cpp:train", "src/Model/DecisionTree/SoftDecisionNode.cpp:SoftDecisionNode", "src/Model/DecisionTree/DecisionTree.cpp:predictProbability"]}
{"id": "C99", "title": "A model file in the layout of the shipped models loads to the model it describes", "statement": "Loading a file written in the layout of the files shipped in models/ (seed then labels; k then rows; priors then weights; trees node by node; network sizes, labels, matrices, activation) gives a model holding exactly the labels, numbers, rows and splits in the file.", "quantifier": "every number of classes, rows, columns, trees, layers, every word and number in the file", "why_tests_cant": "The tests load a handful of files for five data sets; a reader that loses its place only on an empty table, a negative number, a label that looks like a number or one more layer would pass them.", "anchors": ["src/Model/NonParametric/KnnModel.cpp:loadModel", "src/Model/Parametric/LdaModel.cpp:loadModel", "src/Model/DecisionTree/DecisionNode.cpp:DecisionNode(ifstream)", "src/Model/NeuralNetwork/NeuralNetworkModel.cpp:load"]}
{"id": "C100", "title": "Loading a model replaces the previous one", "statement": "After loadModel the model is determined by the file: whatever the object had been trained on or loaded before leaves no trace in it.", "quantifier": "every model, every earlier history of the object and every file", "why_tests_cant": "Each test builds a fresh object and loads one file; the defect needs an object with a history, and histories are unbounded.", "anchors": ["src/Model/RandomModel.cpp:loadModel", "src/Model/Parametric/LdaModel.cpp:loadModel", "src/Model/Parametric/NaiveBayesModel.cpp:loadModel", "src/Model/Ensemble/TreeEnsembleModel.cpp:load", "src/Model/NeuralNetwork/DeepNetworkModel.cpp:loadModel"]}
{"id": "C101", "title": "The linear discriminant scores classes by Gaussian log posterior with pooled covariance", "statement": "After training on numeric data with at least two instances per class, the score of a class for a query is the logarithm of the class's relative frequency minus half the squared Mahalanobis distance from the query to the class mean, with the inverse of the covariance pooled over the classes (deviations from the own class mean, divided by instances minus classes), up to a term that is the same for all classes; the prediction is an allowed class of maximal score.", "quantifier": "every number of classes, instances and features, every training set and query, every inverse and logarithm routine meeting its contract", "why_tests_cant": "The tests compare error rates on a few data sets; a wrong divisor, a wrong sign in the constant term or a missing prior changes few predictions there and stays within the accepted error.", "anchors": ["src/Model/Parametric/LdaModel.cpp:train", "src/Model/Parametric/LdaModel.cpp:calculateMetric", "src/Model/Parametric/GaussianModel.cpp:predict", "src/InstanceList/InstanceList.cpp:covariance"]}
{"id": "C102", "title": "The quadratic discriminant scores classes by Gaussian log posterior with class covariances", "statement": "After training on numeric data with at least two instances per class, the score of a class for a query is log relative frequency minus half the log determinant of the class covariance minus half the squared Mahalanobis distance to the class mean under the inverse class covariance; the prediction is an allowed class of maximal score.", "quantifier": "every number of classes, instances and features, every training set and query, every inverse, determinant and logarithm routine meeting its contract", "why_tests_cant": "Same as for the linear discriminant: only error rates on a few data sets are compared, formula errors in single terms survive.", "anchors": ["src/Model/Parametric/QdaModel.cpp:train", "src/Model/Parametric/QdaModel.cpp:calculateMetric", "src/Model/Parametric/GaussianModel.cpp:predict"]}
{"id": "C103", "title": "Discrete naive Bayes scores classes by Laplace-smoothed log posterior", "statement": "After training on discrete features, the score of a class is the logarithm of its relative frequency plus, for every feature, the logarithm of (occurrences of the query's value in the class + 1) / (class size + distinct values in the class + 1); these smoothed probabilities, with one unseen value, add up to one; the prediction is an allowed class of maximal score.", "quantifier": "every number of classes, instances, features and values, every query including values never seen", "why_tests_cant": "Unit tests check error rates on a few data sets; smoothing of unseen values, the prior and the choice of class counts can be wrong without changing them noticeably.", "anchors": ["src/Model/Parametric/NaiveBayesModel.cpp:trainDiscreteVersion", "src/Model/Parametric/NaiveBayesModel.cpp:logLikelihoodDiscrete", "src/InstanceList/InstanceList.cpp:allAttributesDistribution"]}
{"id": "C104", "title": "Continuous naive Bayes predicts the class of maximal Gaussian posterior", "statement": "After training on continuous features, the predicted class maximises relative frequency times the product of the normal densities with the class's means and standard deviations.", "quantifier": "every training set with non-zero deviations, every query", "why_tests_cant": "The defect shows only when the classes have different spread and the query lies where the two rules disagree; error rates on a few data sets do not reveal it.", "anchors": ["src/Model/Parametric/NaiveBayesModel.cpp:trainContinuousVersion", "src/Model/Parametric/NaiveBayesModel.cpp:logLikelihoodContinuous"]}
{"id": "C105", "title": "Mahalanobis distance is the quadratic form of the matrix", "statement": "The distance of two instances is (x-y)' S (x-y) for the given matrix S; it is symmetric in the instances, zero for equal instances, non-negative for positive semidefinite S, and INT_MAX when the sizes do not match.", "quantifier": "every dimension, matrix and pair of instances", "why_tests_cant": "No test uses this metric; dimension and sign errors need arbitrary matrices.", "anchors": ["src/DistanceMetric/MahalanobisDistance.cpp:distance"]}
{"id": "C106", "title": "Destroying an instance releases its own objects", "statement": "Deleting an instance releases the instance and the attributes added to it, exactly once, and nothing else; no attribute it ever held is lost.", "quantifier": "every heap, every instance and attribute list", "why_tests_cant": "A destructor has no observable result in a test; leaks and undefined deletes pass unnoticed.", "anchors": ["src/Instance/Instance.cpp:~Instance", "src/Instance/Instance.cpp:removeAttribute", "src/Attribute/Attribute.h"]}
{"id": "C107", "title": "A feature subset reads the chosen attributes", "statement": "getSubSetOfFeatures gives an instance with the same class label whose attributes read as the chosen ones, and original and subset can be used and destroyed independently.", "quantifier": "every heap, instance and index list", "why_tests_cant": "Aliasing shows only when one of the two is later changed or destroyed.", "anchors": ["src/Instance/Instance.cpp:getSubSetOfFeatures", "src/DataSet/DataSet.cpp:getSubSetOfFeatures"]}
{"id": "C108", "title": "Normalising rewrites every stored instance once", "statement": "Converting a data set rewrites feature k of every stored instance once by the filter's formula and changes nothing else.", "quantifier": "every data set, every per-feature arithmetic", "why_tests_cant": "A double rewrite needs shared objects; the tests never build such a list.", "anchors": ["src/Filter/Normalize.cpp:convertInstance", "src/Filter/FeatureFilter.cpp:convert"]}
{"id": "C109", "title": "A decision tree owns its nodes", "statement": "Destroying a decision tree releases the tree and all its nodes exactly once, whatever its state: untrained, trained, trained again, copied.", "quantifier": "every tree shape, every heap", "why_tests_cant": "Destructors have no observable result in a test.", "anchors": ["src/Model/DecisionTree/DecisionTree.cpp:~DecisionTree", "src/Model/DecisionTree/DecisionTree.cpp:train", "src/Model/DecisionTree/DecisionNode.cpp:~DecisionNode"]}
{"id": "C110", "title": "Destroying a soft decision tree", "statement": "Destroying a soft decision tree releases the tree and all its nodes exactly once.", "quantifier": "every tree shape, every heap", "why_tests_cant": "Destructors have no observable result in a test.", "anchors": ["src/Model/DecisionTree/SoftDecisionNode.cpp:~SoftDecisionNode", "src/Model/DecisionTree/DecisionTree.cpp:~DecisionTree"]}
{"id": "C111", "title": "An ensemble owns its trees", "statement": "Destroying a bagging or random forest model releases the model, every tree and every node exactly once, however often it was trained or loaded, and touches nothing else.", "quantifier": "every number of trainings, every list of trees, every heap", "why_tests_cant": "Destructors have no observable result in a test.", "anchors": ["src/Model/Ensemble/TreeEnsembleModel.cpp:~TreeEnsembleModel", "src/Model/Ensemble/BaggingModel.cpp:train", "src/Model/Ensemble/RandomForestModel.cpp:train"]}
{"id": "C112", "title": "Temporary arrays are given back", "statement": "fMeasure and weightedFMeasure, the paired t test and the 5x2 tests leave no array behind except the returned one, also when they throw.", "quantifier": "every confusion matrix size, every pair of experiments", "why_tests_cant": "Leaks and mismatched delete pass unnoticed in tests.", "anchors": ["src/Performance/ConfusionMatrix.cpp:fMeasure", "src/Performance/ConfusionMatrix.cpp:weightedFMeasure", "src/StatisticalTest/Paired5x2t.cpp:testStatistic", "src/StatisticalTest/Pairedt.cpp:testStatistic"]}
{"id": "C113", "title": "Decision tree probabilities are class frequencies", "statement": "predictProbability of a trained (and possibly pruned) decision tree gives the class frequencies among exactly the training instances that come through the node at which the query stops; they add up to one, and the predicted label is one of the most probable.", "quantifier": "every training set of a fixed shape, every pruning, every query of that shape", "why_tests_cant": "Needs the path of every training instance and query; tests check a few accuracies only.", "anchors": ["src/Model/DecisionTree/DecisionTree.cpp:predictProbability", "src/Model/DecisionTree/DecisionNode.cpp:predictProbabilityDistribution"]}
{"id": "C114", "title": "SVM training terminates", "statement": "On finite data, with a positive penalty and any kernel (positive semidefinite or not), the two-class solver stops after finitely many iterations; so training a fresh model on continuous data returns, and the trained model answers every query with a class of the training data.", "quantifier": "every set of vectors and labels, kernel, penalty and query; every state the solver can reach", "why_tests_cant": "The loop has no iteration limit; tests only see data sets on which it happened to stop.", "anchors": ["src/Model/Svm/Solver.cpp:solve", "src/Model/Svm/SvmModel.cpp:train"]}
{"id": "C115", "title": "Decision tree splits are the best available", "statement": "In an unpruned decision tree every inner node splits its training instances on a feature and value with the smallest size-weighted average entropy among all splits of the features it looks at (one index against the rest, all values of a discrete feature, every real threshold of a continuous feature), and that average is smaller than the entropy of the node; every leaf is pure or has no split that lowers the entropy. The same holds for the split of a stump and for every tree of bagging and of a random forest on its bootstrap sample.", "quantifier": "every table of instances, entropy function, random arrangement, forest size and attribute subset size", "why_tests_cant": "A test can compare a tree with a stored tree; it cannot compare the chosen split with every other possible split, in particular with all real thresholds.", "anchors": ["src/Model/DecisionTree/DecisionNode.cpp:DecisionNode", "src/Model/DecisionTree/DecisionTree.cpp:train", "src/Model/DecisionTree/DecisionStump.cpp:train", "src/Model/Ensemble/RandomForestModel.cpp:train"]}
{"id": "C116", "title": "Parameter objects reach the training they are for", "statement": "Training works with exactly the settings a parameter object was created with. An object of another class is never accepted quietly; an object of a derived class counts as what it is as an object of the base class. A null parameter is fatal wherever the parameter is read. Classifiers without settings do the same whatever parameter they get, null included. The seed of the parameter does not matter to nearest neighbours, nearest means, bagging, support vector machines and unpruned trees.", "quantifier": "every classifier, its earlier state, every training list and parameter object", "why_tests_cant": "The parameter classes and their combinations with the classifiers are a table; tests use the matching class with one set of numbers. Undefined behaviour after a wrong cast cannot be observed reliably.", "anchors": ["src/Parameter/Parameter.cpp:getSeed", "src/Parameter/KnnParameter.cpp:KnnParameter", "src/Parameter/KMeansParameter.cpp:getDistanceMetric", "src/Parameter/BaggingParameter.cpp:getEnsembleSize", "src/Parameter/SvmParameter.cpp:SvmParameter", "src/Model/NonParametric/KnnModel.cpp:train", "src/Model/Ensemble/BaggingModel.cpp:train", "src/Model/Svm/SvmModel.cpp:train"]}
{"id": "C117", "title": "Experiments with the library's own classifiers", "statement": "A run makes the rounds planned for it (cross validations, repeated, with a separate test set, or bootstrap) and reports one result per round. The results are those of models trained anew in every round. A null parameter ends the run; the experiment on selected features has the same model and parameters and the reduced data set.", "quantifier": "every run, classifier, parameter object and data set; every fold provider, resampling and arrangement that meets its contract", "why_tests_cant": "Whether one round leaves something behind for the next depends on all rounds of the run and shows only in the numbers; a test with a stored accuracy accepts the leaked value.", "anchors": ["src/Experiment/Experiment.cpp:featureSelectedExperiment", "src/Experiment/KFoldRun.cpp:execute", "src/Experiment/MxKFoldRun.cpp:execute", "src/Experiment/BootstrapRun.cpp:execute", "src/Experiment/KFoldRun.cpp:runExperiment"]}
{"id": "C118", "title": "The order of the training data does not matter", "statement": "Training on the same instances in another order gives a classifier with the same answers. The accuracy on a test set does not depend on the order of the test set.", "quantifier": "every data set whose rows have the same kinds of features, every rearrangement of it, every query of that shape; every entropy, midpoint and random index function that meets its contract", "why_tests_cant": "The order enters through stable sorts, running counts and ties between equally good splits; a test compares one file with itself.", "anchors": ["src/Model/DecisionTree/DecisionNode.cpp:DecisionNode", "src/Model/DecisionTree/DecisionTree.cpp:train", "src/Model/DecisionTree/DecisionStump.cpp:train", "src/Model/DummyModel.cpp:train", "src/Model/RandomModel.cpp:train", "src/Model/Model.cpp:test"]}
{"id": "C119", "title": "The units of the features do not matter to decision trees", "statement": "Converting the numeric features with increasing linear functions, feature by feature, in the training data and in the queries leaves every answer of decision trees, stumps, bagging and random forests as it was.", "quantifier": "every data set whose rows have the same kinds of features, every unit change with positive factors, every query of that shape; pruned and unpruned; every entropy, midpoint and random index function that meets its contract", "why_tests_cant": "Thresholds, sort orders and ties have to correspond at every node of every tree; a test sees a few points in one unit.", "anchors": ["src/Model/DecisionTree/DecisionNode.cpp:DecisionNode", "src/Model/DecisionTree/DecisionNode.cpp:createChildrenForContinuous", "src/Model/DecisionTree/DecisionCondition.cpp:satisfy", "src/Model/DecisionTree/DecisionTree.cpp:prune", "src/Model/Ensemble/BaggingModel.cpp:train", "src/Model/Ensemble/RandomForestModel.cpp:train"]}
{"id": "C120", "title": "The order of the training data does not matter to the distance and density classifiers", "statement": "k-nearest neighbours, k-means, the linear and quadratic discriminants and naive Bayes give the same answers when they are trained on the same instances in another order.", "quantifier": "every data set and every rearrangement of it, every query of its shape; every inversion that inverts the invertible matrices, every determinant function that is right on finite matrices, every logarithm that is finite on positive numbers", "why_tests_cant": "Sums, sorts and ties run in the order of the list; a test trains on one file in one order.", "anchors": ["src/Model/NonParametric/KnnModel.cpp:nearestNeighbors", "src/Model/Parametric/KMeansModel.cpp:train", "src/Model/Parametric/LdaModel.cpp:train", "src/Model/Parametric/QdaModel.cpp:train", "src/Model/Parametric/NaiveBayesModel.cpp:trainContinuousVersion", "src/Model/Parametric/NaiveBayesModel.cpp:trainDiscreteVersion"]}
{"id": "C121", "title": "Which units the distance and density classifiers depend on", "statement": "Converting every numeric feature linearly, in the training data and in the queries, leaves the answers of the discriminants and of naive Bayes as they were, and the Mahalanobis distance too. k-nearest neighbours and k-means keep their answers if all features are converted with the same factor, and not in general.", "quantifier": "every data set, every conversion without zero factors, every query of its shape; every inversion that inverts the invertible matrices, every determinant function that is right on finite matrices, every logarithm that turns products into sums", "why_tests_cant": "The means, covariances, inverses and determinants all change; that the effects cancel is a statement about all data sets.", "anchors": ["src/Model/NonParametric/KnnModel.cpp:nearestNeighbors", "src/DistanceMetric/EuclidianDistance.cpp:distance", "src/DistanceMetric/MahalanobisDistance.cpp:distance", "src/Model/Parametric/KMeansModel.cpp:calculateMetric", "src/Model/Parametric/LdaModel.cpp:calculateMetric", "src/Model/Parametric/QdaModel.cpp:calculateMetric", "src/Model/Parametric/NaiveBayesModel.cpp:calculateMetric"]}
{"id": "C122", "title": "The description of a data set tells its name, its sizes and its labels", "statement": "info() shows the name, the numbers of instances, class labels, features, discrete and continuous features, and the labels in order of appearance. Each of them can be read off the text, and to_string() distinguishes data sets of different sizes.", "quantifier": "every name and data set", "why_tests_cant": "A test compares the description of one data set with one text; that different data sets have different descriptions is a statement about all pairs.", "anchors": ["src/DataSet/DataSet.cpp:info", "src/DataSet/DataSet.cpp:getClasses", "src/DataSet/DataSet.cpp:to_string"]}
{"id": "C123", "title": "The text of a neighbour shows label and distance", "statement": "KnnInstance::to_string gives the class label and the distance.", "quantifier": "every instance and every distance", "why_tests_cant": "A test would look at one small distance, which shows as a control character.", "anchors": ["src/Model/NonParametric/KnnInstance.cpp:to_string"]}
{"id": "C124", "title": "An exception tells what went wrong", "statement": "what() of the library's exceptions returns a text that can be read by the handler.", "quantifier": "every exception object", "why_tests_cant": "Reading a dangling pointer often shows the expected text in a test.", "anchors": ["src/StatisticalTest/StatisticalTestNotApplicable.cpp:what", "src/Performance/ClassificationAlgorithmExpectedException.cpp:what", "src/Model/DiscreteFeaturesNotAllowed.cpp:what"]}
{"id": "C125", "title": "Classifiers that must coincide do coincide", "statement": "In the cases where textbooks say that two classifiers are one and the same, the library's classifiers give the same label for every query: k-nearest neighbours with all instances and the majority classifier; k-means with one instance per class and the nearest neighbour; linear discriminant with equal priors and spherical covariance and k-means; quadratic discriminant with equal covariances and the linear one; naive Bayes with equal deviations and the diagonal linear discriminant; a random forest that may use all attributes and bagging; an ensemble of one tree and the tree; all of tree, stump, ensemble and majority on data with one label.", "quantifier": "every training set, query, distance, external inverse, determinant, logarithm and random source that meets its contract", "why_tests_cant": "A unit test trains one model on one data set; that two independently written classifiers agree on every query is a relation between two programs.", "anchors": ["src/Model/NonParametric/KnnModel.cpp:predict", "src/Model/DummyModel.cpp:predict", "src/Model/Parametric/KMeansModel.cpp:calculateMetric", "src/Model/Parametric/LdaModel.cpp:calculateMetric", "src/Model/Parametric/QdaModel.cpp:calculateMetric", "src/Model/Parametric/NaiveBayesModel.cpp:calculateMetric", "src/Model/Ensemble/RandomForestModel.cpp:train", "src/Model/Ensemble/BaggingModel.cpp:train", "src/Model/DecisionTree/DecisionStump.cpp:train"]}
{"id": "C126", "title": "A deep network with one hidden layer is a multi-layer perceptron", "statement": "Trained on the same data with the same parameters, a DeepNetworkModel with one hidden layer and a MultiLayerPerceptronModel have the same weights and answer every query alike.", "quantifier": "every training set with consistent features, every parameter set with one hidden layer, every source of random numbers, every exp and tanh", "why_tests_cant": "A test would compare two trained networks on a few instances, with random weights and one activation function.", "anchors": ["src/Model/NeuralNetwork/DeepNetworkModel.cpp:train", "src/Model/NeuralNetwork/DeepNetworkModel.cpp:calculateOutput", "src/Model/NeuralNetwork/MultiLayerPerceptronModel.cpp:train", "src/Model/NeuralNetwork/MultiLayerPerceptronModel.cpp:calculateOutput"]}
{"id": "C127", "title": "An unpruned tree classifies its training data when one feature tells the classes apart", "statement": "If some feature (continuous, discrete or indexed) never has the same value for instances of different classes, an unpruned decision tree gives every training instance its own label; every tree of a bagging ensemble or random forest does so for the instances of its own sample, if that feature is among those it looks at.", "quantifier": "every training set of plain instances, every impurity measure that is zero for one class, positive for several, and lowered by cutting off instances of one class", "why_tests_cant": "Which thresholds a tree tries depends on the data; that none is missed and that growing does not stop early is a claim about every training set.", "anchors": ["src/Model/DecisionTree/DecisionNode.cpp:DecisionNode", "src/Model/DecisionTree/DecisionTree.cpp:train", "src/Model/DecisionTree/DecisionTree.cpp:predict", "src/Model/Ensemble/BaggingModel.cpp:train", "src/Model/Ensemble/RandomForestModel.cpp:train"]}
{"id": "C128", "title": "The names of the classes do not matter", "statement": "Renaming the classes in training and test data, in a way that keeps their alphabetical order and leaves the empty name alone, renames the answers of every classifier and changes nothing else: failures, accuracies, error rates and confusion counts stay, in single trainings and in all nine experiment runs. Networks and the soft tree need no order, only different names for different classes.", "quantifier": "every classifier, parameter object, training set, query, test set, experiment run and renaming; for external functions that do not look at names", "why_tests_cant": "Every comparison of strings in the library is a possible dependence on names; a test tries two or three names.", "anchors": ["src/Model/Model.cpp:getMaximum", "src/Model/Model.cpp:testClassifier", "src/InstanceList/InstanceList.cpp:classDistribution", "src/InstanceList/InstanceListOfSameClass.cpp", "src/InstanceList/Partition.cpp:Partition", "src/Performance/ConfusionMatrix.cpp:classify", "src/Experiment/KFoldRun.cpp:execute"]}
{"id": "C129", "title": "What rounding does to accuracies", "statement": "With IEEE double arithmetic instead of exact numbers, the accuracy of a test is the share of right answers rounded once. Accuracy and error rate stay between 0 and 1, are 1 or 0 exactly when all answers are right or wrong, and compare as the counts do, so reduced-error pruning gives the same tree as exact arithmetic. Mean accuracies, precision, recall and F-measures stay between 0 and 1 (or NaN).", "quantifier": "every rounding with the properties of IEEE round-to-nearest (binary64 is one), every test, confusion matrix, tree and pruning set with at most 2^52 instances (2^53 instances in products for comparisons across sizes)", "why_tests_cant": "A test compares a few fractions; whether some pair of fractions collides or leaves [0,1] after rounding is a question about all counts.", "anchors": ["src/Performance/ConfusionMatrix.cpp:getAccuracy", "src/Performance/ConfusionMatrix.cpp:fMeasure", "src/Performance/ConfusionMatrix.cpp:weightedFMeasure", "src/Performance/ExperimentPerformance.cpp:meanClassificationPerformance", "src/Performance/ExperimentPerformance.cpp:isBetter", "src/Model/ValidatedModel.cpp:testClassifier", "src/Model/DecisionTree/DecisionTree.cpp:pruneNode"]}
{"id": "C130", "title": "Distances and nearest neighbours with rounding", "statement": "With IEEE double arithmetic the Euclidean distance is still symmetric, never negative or NaN on finite features, 0 from an instance to itself, and not larger when every feature is nearer. Its relative error is at most (n+3)/2^52 for n features of moderate size, and zero on whole numbers up to 2^53. So k-nearest-neighbour answers are those of exact arithmetic whenever competing distances are apart by that much, and always on whole numbers.", "quantifier": "every rounding with the properties of IEEE round-to-nearest, every training set, k and query; features finite for all but symmetry, differences within 2^-500..2^500 (or 0) for the error bound", "why_tests_cant": "The error of a sum depends on all operands; a test sees a few sums, and a wrong neighbour shows only where two distances nearly tie.", "anchors": ["src/DistanceMetric/EuclidianDistance.cpp:distance", "src/Model/NonParametric/KnnModel.cpp:nearestNeighbors", "src/Model/NonParametric/KnnModel.cpp:predict"]}
{"id": "C131", "title": "Statistical tests with rounding", "statement": "With IEEE double arithmetic, exchanging two classifiers turns the sign of the three t statistics and leaves the F statistic unchanged to the last digit, so compare(a, b) = -compare(b, a). Classifiers with the same results are always refused, a larger level keeps rejections, and the sign test gives the p-value of exact arithmetic. The 5x2 tests refuse a constant difference; the paired t test does not.", "quantifier": "every rounding with the properties of IEEE round-to-nearest, every square root function that maps equal to equal and 0 to 0, every pair of experiments; binary64 and at most 1000 results for the sign test", "why_tests_cant": "A variance that is 0 in exact arithmetic and 1e-33 in doubles turns a refusal into an enormous statistic; whether that happens depends on the last digits of all results.", "anchors": ["src/StatisticalTest/Pairedt.cpp:testStatistic", "src/StatisticalTest/Paired5x2t.cpp:testStatistic", "src/StatisticalTest/Combined5x2t.cpp:testStatistic", "src/StatisticalTest/Combined5x2f.cpp:testStatistic", "src/StatisticalTest/Sign.cpp:compare", "src/StatisticalTest/PairedTest.cpp:compare", "src/StatisticalTest/StatisticalTestResult.cpp:twoTailed"]}
{"id": "C132", "title": "Growing trees with rounding", "statement": "With IEEE double arithmetic, training a decision tree ends and gives a tree whose nodes divide their data properly, that returns only labels it has seen and is at least as good on its training data as the largest class, provided the values of each continuous column differ by more than eight units in the last place and there are no indexed columns. With indexed columns it ends if h * n / n does not come out below h for the entropies h and sizes n of the nodes; otherwise it can recurse for ever.", "quantifier": "every table without NaN or infinite values, every entropy function on doubles, every rounding with the properties of IEEE round-to-nearest; binary64 for the midpoints", "why_tests_cant": "Whether the recursion ends depends on the last bit of one product and one quotient per node: 3 instances of one class against 8 of another hang, 4 against 8 do not.", "anchors": ["src/Model/DecisionTree/DecisionNode.cpp:DecisionNode", "src/Model/DecisionTree/DecisionNode.cpp:entropyForDiscreteAttribute", "src/Model/DecisionTree/DecisionNode.cpp:createChildrenForDiscreteIndexed", "src/Model/DecisionTree/DecisionNode.cpp:createChildrenForContinuous"]}
{"id": "C133", "title": "A model file that is missing, empty or cut off", "statement": "Loading a model from a file that does not exist, is empty or breaks off reports an error and does not give a model made of anything but the file's contents.", "quantifier": "every loader that reads a count, every file with nothing but blanks, every place a label, a row or a tree can be cut off, every announced count", "why_tests_cant": "Whether a short file crashes or is silently accepted depends on whether its last character is a newline and on what the stack held before; a test of one broken file sees one of these outcomes.", "anchors": ["src/Model/RandomModel.cpp:load", "src/Model/NonParametric/KnnModel.cpp:load", "src/Model/Ensemble/TreeEnsembleModel.cpp:load", "src/Model/NeuralNetwork/NeuralNetworkModel.cpp:load", "src/Model/Svm/SvmModel.cpp:SvmModel", "src/InstanceList/InstanceList.cpp:InstanceList", "src/Model/DecisionTree/DecisionNode.cpp:DecisionNode"]}
{"id": "C134", "title": "The order of the features", "statement": "Listing the features of all instances in another order does not change what a classifier trained on them answers: distances, neighbours, class means, likelihoods and discriminant scores stay the same.", "quantifier": "every arrangement of any number of features, every training set of that width, every query, NaN and infinities included for distances and naive Bayes", "why_tests_cant": "A test fixes one column order; that no loop depends on the order, in particular the determinant and the inverse of the covariance, is a statement about all permutations.", "anchors": ["src/DistanceMetric/EuclidianDistance.cpp:distance", "src/Model/NonParametric/KnnModel.cpp:nearestNeighbors", "src/Model/Parametric/KMeansModel.cpp:train", "src/Model/Parametric/NaiveBayesModel.cpp:logLikelihoodContinuous", "src/Model/Parametric/LdaModel.cpp:train", "src/Model/Parametric/QdaModel.cpp:train", "src/Model/DecisionTree/DecisionNode.cpp:DecisionNode"]}
{"id": "C135", "title": "On ordinary data everything works", "statement": "With suitable settings a classifier trained on instances that all carry the same number of finite numbers trains without failing and afterwards answers every such instance with one of the training labels; an experiment on such data finishes and gives a result for every round.", "quantifier": "every non-empty training set of any width, every query of that width, every metric that yields numbers, every seed, every earlier training of the same object on such data", "why_tests_cant": "A test tries a handful of data sets and settings; that no loop of any of the classifiers runs off a list, casts wrongly, divides into an index or returns an invented label is a statement about all of them.", "anchors": ["src/Model/NonParametric/KnnModel.cpp:train", "src/Model/Parametric/KMeansModel.cpp:train", "src/Model/Parametric/LdaModel.cpp:train", "src/Model/Parametric/QdaModel.cpp:train", "src/Model/Parametric/NaiveBayesModel.cpp:train", "src/Model/DecisionTree/DecisionTree.cpp:train", "src/Model/DecisionTree/DecisionStump.cpp:train", "src/Model/Ensemble/BaggingModel.cpp:train", "src/Model/Ensemble/RandomForestModel.cpp:train", "src/Model/NeuralNetwork/LinearPerceptronModel.cpp:train", "src/Model/NeuralNetwork/MultiLayerPerceptronModel.cpp:train", "src/Model/NeuralNetwork/DeepNetworkModel.cpp:train", "src/Model/Svm/SvmModel.cpp:train", "src/Experiment/KFoldRun.cpp:execute"]}
{"id": "C136", "title": "A support vector machine sees the features only through the kernel", "statement": "A change of the features of the training data and of the queries that leaves the kernel values as they are leaves the classes, offsets, coefficients and answers of a support vector machine as they are. So the order of the features never matters, a feature that is zero everywhere never matters, and with the radial kernel neither a constant feature nor the position of the origin matters; with a polynomial kernel the origin does matter.", "quantifier": "every training set, every number of classes, every kernel and parameter, every number of steps (runs that fail fail alike), every query", "why_tests_cant": "Training is a long iteration whose every comparison depends on rounded kernel values and on the order of shrinking; a test compares two runs on one data set.", "anchors": ["src/Model/Svm/SvmModel.cpp:train", "src/Model/Svm/SvmModel.cpp:predict", "src/Model/Svm/Solver.cpp:solve", "src/Model/Svm/Kernel.cpp:function", "src/Model/Svm/NodeList.cpp:dot"]}
{"id": "C137", "title": "A support vector machine does not err on training data that it can tell apart", "statement": "If for every two classes some function of the kernel's feature space plus a constant is at least 1 on one class and at most -1 on the other, and the penalty C is larger than 1.001 times the squared length of that function, then the solution the solver reaches puts every training instance on its side with a margin of at least 0.999, and the trained machine gives every training instance its own class. With the linear kernel: planes between the classes.", "quantifier": "every training set, every number of classes, every kernel that is positive semidefinite on the points involved, every query among the training instances", "why_tests_cant": "How large C has to be depends on the data, and the runs on which the program errs depend on which variables were shrunk; a test checks one data set.", "anchors": ["src/Model/Svm/SvmModel.cpp:train", "src/Model/Svm/SvmModel.cpp:predict", "src/Model/Svm/Solver.cpp:solve"]}
{"id": "C138", "title": "A feature that is the same in all training instances", "statement": "Inserting a feature with one and the same value into all training instances does not change the answers of decision trees (pruned or not), stumps, bagging, k nearest neighbours and k-means, whatever position it is inserted at and (within the stated limits) whatever value the query has there. Trees keep their questions, renumbered. Naive Bayes is not indifferent: on texts every class score moves by ln((k+1)/(k+2)) for a class of k training instances, on numbers every score is lost and the most frequent class is the only answer left.", "quantifier": "every data set, every position and value of the feature, every query, every logarithm, entropy and random source", "why_tests_cant": "Whether the extra column ever wins a split or breaks a tie depends on the data; the loss of all scores by a zero deviation shows only when a constant column is tried.", "anchors": ["src/Model/DecisionTree/DecisionNode.cpp:DecisionNode", "src/Model/DecisionTree/DecisionTree.cpp:train", "src/Model/Ensemble/BaggingModel.cpp:train", "src/Model/NonParametric/KnnModel.cpp:predict", "src/Model/Parametric/KMeansModel.cpp:train", "src/Model/Parametric/NaiveBayesModel.cpp:train"]}
{"id": "C139", "title": "The paired tests look at the differences of the results only", "statement": "A paired comparison of two classifiers does not depend on the order in which the folds are listed, on an amount added to both results of a fold, or on the unit (fractions or percent); giving accuracies instead of error rates reverses it. The sign test looks only at who won each fold.", "quantifier": "all pairs of result lists (sign test: all doubles; t and F tests: all finite results), all reorderings, offsets and factors, every t distribution", "why_tests_cant": "The comparison is over two whole runs of a test on related inputs, and the dependence on the order shows only for particular lists.", "anchors": ["src/StatisticalTest/Sign.cpp:compare", "src/StatisticalTest/Pairedt.cpp:testStatistic", "src/StatisticalTest/Paired5x2t.cpp:testStatistic", "src/StatisticalTest/Combined5x2t.cpp:testStatistic", "src/StatisticalTest/Combined5x2f.cpp:testStatistic", "src/StatisticalTest/PairedTest.cpp:compare"]}
{"id": "C140", "title": "Testing on reordered, repeated and divided data", "statement": "The result of a test does not depend on the order of the test data, nor on repeating them; a test on data that come in parts has the counts of the parts added up, and its accuracy is the mean of the parts' accuracies weighted by their sizes. The two summaries of an experiment, the mean of the accuracies and the accuracy of the merged confusion matrix, agree. The accuracy is the mean of the recalls weighted by how often the labels occur.", "quantifier": "every deterministic prediction function (also different ones per round), every test set, every order, every division, any number of rounds", "why_tests_cant": "The claims relate the results of several tests to each other for all data; unit tests fix one test set in one order.", "anchors": ["src/Model/Model.cpp:test", "src/Performance/ConfusionMatrix.cpp:getAccuracy", "src/Performance/ConfusionMatrix.cpp:recall", "src/Performance/ConfusionMatrix.cpp:addConfusionMatrix", "src/Performance/ExperimentPerformance.cpp:meanClassificationPerformance", "src/Performance/ExperimentPerformance.cpp:meanDetailedPerformance"]}
{"id": "C141", "title": "Giving every training instance several times", "statement": "Training an unpruned decision tree or a stump on data in which every instance occurs m times as often, in any order, gives a tree with the same answers and the same probabilities; the same holds for the dummy and the random classifier and for k-means. With m times as many neighbours the nearest neighbour classifier finds the same neighbours, each m times, and answers the same; with at most m neighbours it answers like one with a single neighbour.", "quantifier": "every m, every data set of the stated kind, every order of the copies (trees, dummy, random), every query, every entropy that depends on relative frequencies only, every distance", "why_tests_cant": "The claims compare two trainings for all data; unit tests train once on one data set.", "anchors": ["src/Model/DecisionTree/DecisionNode.cpp:DecisionNode", "src/Model/DecisionTree/DecisionTree.cpp:train", "src/Model/DecisionTree/DecisionStump.cpp:train", "src/Model/NonParametric/KnnModel.cpp:nearestNeighbors", "src/Model/Parametric/KMeansModel.cpp:train", "src/Model/Parametric/NaiveBayesModel.cpp:train", "src/Model/DummyModel.cpp:train", "src/Model/RandomModel.cpp:train"]}
{"id": "C142", "title": "Feature selection compares all subsets on the same rounds", "statement": "The experiments that featureSelectedExperiment makes from one experiment train and test on the same rounds: one list of (training part, test part) pairs, found from the run class, the seed and the original data, serves every feature subset, and a subset only decides which features of those instances are seen. The same list serves every classifier and every change of the features that leaves the classes alone. Selecting all the features in order gives the results of the original experiment. For the nearest neighbour classifier the order in which a subset lists its features does not matter, and for the dummy classifier the subset does not matter at all.", "quantifier": "every data set whose instances conform to its definition, every feature subset, every classifier and parameter, every run class, K, M, number of bootstraps and seed, every sampling library that draws positions", "why_tests_cant": "A test compares two subsets on one data set. That no subset is ever scored on easier folds than another is a claim about all subsets, data sets and runs; it is what makes the comparisons of FeatureSelection, and the paired tests on their results, meaningful.", "anchors": ["src/Experiment/Experiment.cpp:48-51", "src/Instance/Instance.cpp:189-195", "src/DataSet/DataSet.cpp", "src/Experiment/KFoldRun.cpp:25-46", "src/Experiment/StratifiedKFoldRun.cpp:22-28", "src/Experiment/BootstrapRun.cpp:23-32", "src/Experiment/KFoldRunSeparateTest.cpp:26-49", "src/Experiment/SingleRunWithK.cpp:26-42"]}
{"id": "C143", "title": "What one more or one fewer training instance does to an answer", "statement": "The nearest neighbour classifier's answer and probabilities depend only on the k neighbours: deleting any training instances that are not among them changes nothing, and neither does adding instances that are strictly farther away than all k. Adding a training instance that carries the label already answered never changes the answer of the nearest neighbour classifier, wherever the instance lies and whatever k is, nor that of the dummy classifier; and adding to an ensemble a tree that votes for its answer never changes the answer. An unpruned decision tree and the k-means classifier should keep their answer too when the added instance carries it.", "quantifier": "every training list, query, k and distance that is a number, every place at which the instance or the tree is added", "why_tests_cant": "A test adds one instance to one training list. That no instance anywhere in space, with any label order, any ties and any k, can turn the vote against its own label is a statement about all lists; ties in the distance and in the vote are resolved by position, so the claim is not obvious even for one instance.", "anchors": ["src/Model/NonParametric/KnnModel.cpp:32-71", "src/Model/Model.cpp", "src/Model/DummyModel.cpp", "src/Model/Ensemble/TreeEnsembleModel.cpp", "src/Model/DecisionTree/DecisionNode.cpp"]}
{"id": "C144", "title": "Which features a decision tree depends on", "statement": "The answer and the probabilities of a decision tree for an instance depend only on the features asked for on the instance's way from the root: all other features, the number of features and the label of the instance may be changed freely. A feature that no branch of an unpruned tree or stump asks for could have been left out of the training data: training without it succeeds and gives a tree with the same answers and probabilities for every instance. The same holds for a bagging ensemble none of whose trees asks for the feature. It does not hold for pruned trees and random forests.", "quantifier": "every tree and instance; every training list with texts, finite numbers, bits and indexed values in any mixture, every position of the feature, every size of the ensemble and every sampling of positions", "why_tests_cant": "A test drops one feature from one data set. The feature takes part in the search at every node (the list is sorted by it, it may be the best so far for a while), so that its absence leaves no trace is a statement about all the searches of all trees.", "anchors": ["src/Model/DecisionTree/DecisionNode.cpp:111-213", "src/Model/DecisionTree/DecisionNode.cpp:222-254", "src/Model/DecisionTree/DecisionNode.cpp:335-346", "src/Model/DecisionTree/DecisionTree.cpp:23-29", "src/Model/DecisionTree/DecisionTree.cpp:103-112", "src/Model/Ensemble/BaggingModel.cpp:18-24"]}
{"id": "C145", "title": "A feature that repeats another one", "statement": "If in all training instances a later feature says the same as an earlier one (the same text, index or bit, or the same number, possibly in other units such as degrees Celsius and Fahrenheit), no unpruned tree, stump or bagging ensemble ever asks for the later one; leaving it out of the training data gives a classifier with the same answers and probabilities for every instance. In particular giving a feature once more at the end changes no answer of a decision tree. A pruned tree does not ask for the later feature either. Other classifiers are affected: a random forest may draw the repeated feature, nearest neighbours and k-means count its difference twice, naive Bayes adds its term twice, and for linear and quadratic discriminants the matrix to be inverted has no inverse.", "quantifier": "every training list with texts, finite numbers, bits and indexed values in any mixture, every two positions, every increasing conversion of units, every query instance (also one whose two features differ); every sample and class for the discriminants", "why_tests_cant": "A test repeats one column of one data set. That ties are always decided for the earlier feature, at every node, also after the list has been sorted by other features in between, is a statement about all searches.", "anchors": ["src/Model/DecisionTree/DecisionNode.cpp:111-213", "src/Model/DecisionTree/DecisionTree.cpp:57-69", "src/Model/DecisionTree/DecisionTree.cpp:103-112", "src/Model/Ensemble/BaggingModel.cpp:18-24", "src/DistanceMetric/EuclidianDistance.cpp:18-32", "src/Model/Parametric/NaiveBayesModel.cpp:59-68", "src/Model/Parametric/LdaModel.cpp:69-105"]}
{"id": "C146", "title": "A class with no more instances than features takes over the quadratic discriminant", "statement": "A class with at most as many instances as there are features has a covariance matrix with determinant zero and without inverse; so has the pooled covariance of the linear discriminant if there are fewer instances than features plus classes. Training prints a message and goes on. The quadratic discriminant then gives such a class the score plus infinity for every query: one class with too few instances is enough, and from then on every plain query gets the same answer, a degenerate class, however far away it is; a composite query that allows the class gets a degenerate class. If one feature repeats another one (up to units), every class is degenerate, and the answer is always the first label.", "quantifier": "every sample with at least two instances of every class, every number of features, every query; every inversion that leaves finite numbers and every determinant that is exact", "why_tests_cant": "A test has one small class and one query. That the determinant vanishes for every class of at most as many instances as features is linear algebra, and that no query at all escapes the degenerate class is a statement about all queries.", "anchors": ["src/Model/Parametric/QdaModel.cpp:24-37", "src/Model/Parametric/QdaModel.cpp:54-85", "src/Model/Parametric/GaussianModel.cpp:15-45", "src/Model/Parametric/LdaModel.cpp:69-105"]}
{"id": "C147", "title": "What telling the possible labels of a query does", "statement": "A query may say that its label is one of a list (a composite instance). If the label a classifier answers without the list is in the list, telling the list does not change the answer of naive Bayes, the discriminants and nearest mean (as long as no other listed class has the same score), of a neural network, of one nearest neighbour, of k nearest neighbours if all of them have listed labels, of the dummy model and of a decision tree (as long as no other listed label is as frequent at the leaf), and of an ensemble if all its trees vote for listed labels. With several neighbours, or an ensemble some of whose trees vote for labels not in the list, the answer may change although it is in the list. Support vector machines and soft decision trees do not look at the list, so their answer may not be in it. The order of the list and repetitions in it do not matter to neighbours and networks, and to the scores only between equal scores.", "quantifier": "every trained classifier of each kind, every query, every list of labels (known or not, in any order, with repetitions)", "why_tests_cant": "A test asks one query with one list. Whether an admissible answer survives a restriction is a relation between the answers to two queries, for all lists.", "anchors": ["src/Model/Parametric/GaussianModel.cpp:15-45", "src/Model/NonParametric/KnnModel.cpp:32-70", "src/Model/NeuralNetwork/NeuralNetworkModel.cpp:135-162", "src/Model/DecisionTree/DecisionNode.cpp:222-254", "src/Model/DecisionTree/DecisionTree.cpp:23-29", "src/Model/Ensemble/TreeEnsembleModel.cpp:21-27", "src/Model/DummyModel.cpp:23-30", "src/Instance/CompositeInstance.cpp:46-59"]}
{"id": "C148", "title": "Several classifiers trained on one list, one after the other", "statement": "train takes the list by reference. Every classifier except the support vector machine leaves it as it is; the support vector machine leaves it ordered by label, instances of one label in their old order. So in a sequence of trainings on one list object each one works on the list as given, until a support vector machine has been trained, and on the ordered list from then on. This makes no difference to another support vector machine (the model, and any error, is the same), to the dummy and random models (same object), to unpruned trees, stumps and k-means (same answers to every query), and to k nearest neighbours when no two labels compete for the last place. It does make a difference to k nearest neighbours otherwise, and to ensembles.", "quantifier": "every list, every sequence of classifiers and parameter objects, every query", "why_tests_cant": "A test trains one model on a list of its own. That no training disturbs a later one is a statement about all sequences of calls on one object.", "anchors": ["src/Model/Svm/SvmModel.cpp:18-40", "src/InstanceList/InstanceList.cpp:177-179", "src/Model/DecisionTree/DecisionNode.cpp:111-118", "src/Model/Model.h:26", "src/Model/NonParametric/KnnModel.cpp:106-110", "src/Model/Ensemble/BaggingModel.cpp:18-24"]}
{"id": "C149", "title": "Replacing discrete features by indicators and the nearest neighbours", "statement": "After DiscreteToContinuous the Euclidian distance of two instances of a data set is the distance before plus the number of discrete features in which they differ: each such feature counts twice, numeric features count as before. If all features are discrete, k nearest neighbours gives the same answers and probabilities before and after, for every k and every choice of training instances and queries, also for queries with values that never occur in the training data. With numeric features beside the discrete ones the answer may change, and nearest mean may change even with a single discrete feature. After LaryToBinary and DiscreteToIndexed the distance does not see the features any more: all distances are 0 and the neighbours of every query are the first k training instances.", "quantifier": "every data set in which each feature is discrete in all instances or in none and no value is the comma, every choice of training instances, query and k", "why_tests_cant": "A test converts one data set and looks at the new features. That an encoding leaves all answers of a classifier unchanged, or takes all information away from it, is a statement about all data sets and queries.", "anchors": ["src/Filter/DiscreteToContinuous.cpp:24-40", "src/Filter/LaryToBinary.cpp:23-38", "src/Filter/DiscreteToIndexed.cpp:22-31", "src/DistanceMetric/EuclidianDistance.cpp:18-32", "src/Model/NonParametric/KnnModel.cpp:32-97"]}
{"id": "C150", "title": "A classifier that is on no fold worse, and a classifier that improves", "statement": "If the first classifier's error rate is on every fold at most the second's, PairedTest::compare never calls it the worse one: the sign test with m strictly better folds decides against the second classifier exactly when 1/2^m is below the level, and otherwise gives no decision; the statistics of the three t tests are not positive and, up to level one half, the decision is against the second classifier or none. If the first classifier improves on some folds and gets worse on none, the sign test's p-value for it does not fall, the other one's does not rise, and the decision never moves against it. The paired t test does not have this: a classifier better on every fold that becomes better still on one fold can lose the decision in its favour.", "quantifier": "every two experiments (any number of folds, any rational error rates), every level; sign test with 1 to 12 untied folds; every distribution function that gives the upper tail of a symmetric distribution", "why_tests_cant": "A test compares a few lists of error rates. That improving a classifier can never turn the decision against it is a statement about all pairs of lists and all levels.", "anchors": ["src/StatisticalTest/PairedTest.cpp:19-33", "src/StatisticalTest/Sign.cpp:43-66", "src/StatisticalTest/Pairedt.cpp:15-49", "src/StatisticalTest/Paired5x2t.cpp:15-52", "src/StatisticalTest/Combined5x2t.cpp:15-55"]}
{"id": "C151", "title": "On discrete data every classifier either works or refuses", "statement": "On a list of instances whose features are all discrete, nearest neighbours, k-means, naive Bayes, dummy and random model, decision tree (pruned under the same condition as on numeric data), stump, bagging and random forest train, leave the list as it was, and answer every query of words - also of words never seen - with a label they were shown. LDA, QDA, linear perceptron, multilayer perceptrons, auto encoder and support vector machine throw DiscreteFeaturesNotAllowed, whatever the object held before and whatever the parameters. The soft decision tree has no such check: it throws Math's exception about different vector lengths as soon as it computes with an instance (or std::out_of_range if all instances went to the validation part). On any mixture of discrete, binary, indexed and numeric columns trees, ensembles, nearest neighbours, dummy and random model work. Naive Bayes on a mixture does not: it trains, and the first question is undefined behaviour; so is asking an object about numbers that was trained on words before.", "quantifier": "every list, every number of features, every query, every object (also trained before), every setting of the stated form, every library function within its contract", "why_tests_cant": "A test tries some classifiers on some discrete file. That every query is answered, and that no setting or earlier training gets around the refusal, is about all of them.", "anchors": ["src/Model/Model.cpp:30-37", "src/Model/Parametric/LdaModel.cpp:69-105", "src/Model/Parametric/QdaModel.cpp:53-83", "src/Model/Parametric/NaiveBayesModel.cpp:59-68", "src/Model/NeuralNetwork/NeuralNetworkModel.cpp:23-30", "src/Model/Svm/SvmModel.cpp:18-22", "src/Model/DecisionTree/SoftDecisionNode.cpp:51-65"]}
{"id": "C152", "title": "The label a query carries is not read, so contradictions in the data bound every accuracy", "statement": "predict and predictProbability of every class give the same answer for two instances that agree in their attributes and possible labels but carry different labels: testing on a labelled file cannot leak the answers. So relabelling the test data changes the actual labels in the result only; and for every classifier, however trained, the accuracy is at most the share of instances one gets by answering each group of identical questions with its most frequent label - every disjoint pair of identical questions with different labels costs at least one mistake. One nearest neighbour answers a training instance with the label of an instance at distance zero and is perfect on its own training data if that has no contradictions; three neighbours can be wrong on all of it.", "quantifier": "every classifier in every state, every pair of instances, every test list and grouping; one nearest neighbour: every list of any mixture of columns", "why_tests_cant": "A test checks some predictions; that none of them looked at the label it is compared with can only be seen from all of them.", "anchors": ["src/Model/Model.cpp:45-53", "src/Model/NonParametric/KnnModel.cpp:32-88", "src/Model/Parametric/GaussianModel.cpp:15-45", "src/Model/DecisionTree/DecisionNode.cpp:222-254", "src/Model/DecisionTree/DecisionNode.cpp:335-346", "src/Model/NeuralNetwork/NeuralNetworkModel.cpp:154-197", "src/Model/Svm/SvmModel.cpp:212-238"]}
{"id": "C153", "title": "Normalising the data before training", "statement": "Normalising a data set is a change of units: one positive factor and one shift per number feature. Its result does not depend on the units the data came in (grams or kilograms, Celsius or Fahrenheit give the same normalised data, NaN for constant features included), and doing it twice is doing it once. Training a decision tree, pruned or not, a forest or a linear discriminant on the normalised data and asking it about normalised rows gives the labels and probabilities the data itself would have given. Nearest neighbours may change, and normalising training and test data separately may change everything.", "quantifier": "every data set of at least two instances with a fixed set of number features, every choice of training rows, every entropy, midpoint and permutation source that keeps its contract; trees: every pruning share and seed", "why_tests_cant": "A test normalises one data set and compares some numbers; that nothing learned from it depends on the units or on the normalisation is about all data sets and all trainings.", "anchors": ["src/Filter/Normalize.cpp:14-33", "src/InstanceList/InstanceList.cpp:standardDeviation", "src/Model/DecisionTree/DecisionNode.cpp:76-190", "src/Model/Parametric/LdaModel.cpp:train", "src/Model/NonParametric/KnnModel.cpp:62-88"]}
{"id": "C154", "title": "Between two queries with the same answer", "statement": "For the linear discriminant, k-means, the linear perceptron, the two-class support vector machine with the linear kernel and the decision stump, two queries with the same answer give it to every query on the straight way between them. A decision stump gives in the whole box between two queries only their two answers. Two queries that reach the same node of any decision tree bring everything in the box between them to this node, for numbers, texts and indexed features. So two crossing ways with different answers at their ends are impossible: exclusive or is never learned by any of the five, whatever they were trained on. Nearest neighbours, decision trees and quadratic discriminants can have another answer in the middle.", "quantifier": "all training sets of number features, all queries (composite ones too), every point of the way, every kernel parameter, every entropy, midpoint and logarithm that keeps its contract; the perceptron for every finite weight matrix", "why_tests_cant": "A test asks a few points; that no point between two equal answers gets another one is a statement about infinitely many queries and every model that training can produce.", "anchors": ["src/Model/Parametric/GaussianModel.cpp:15-45", "src/Model/Parametric/LdaModel.cpp:calculateMetric", "src/Model/Parametric/KMeansModel.cpp:21-28", "src/Model/NeuralNetwork/LinearPerceptronModel.cpp:16-21", "src/Model/Svm/SvmModel.cpp:170-238", "src/Model/DecisionTree/DecisionCondition.cpp:52-75", "src/Model/DecisionTree/DecisionNode.cpp:42-86"]}
{"id": "C155", "title": "Trees do not look beyond the values they were trained on", "statement": "Take two queries that agree in every feature, except that a number may be replaced by another one when both are at most the smallest or both at least the largest number of this feature in the training data (infinities included), a text by another one when neither occurs in the training data, an indexed value by another one when the number of neither occurs. A decision tree, pruned or not, a decision stump, bagging and a random forest give both queries the same answer and the same probabilities. In particular a number may be clamped to the range met in training before asking. The nearest neighbour and the quadratic discriminant change their answer outside of the data.", "quantifier": "all tabular training sets, all such pairs of queries (composite ones too), every entropy, midpoint, shuffle, bootstrap draw, feature draw, pruning ratio and ensemble size", "why_tests_cant": "The values outside of the training data are infinitely many, and any cut placed outside of them would only show on queries nobody thought of testing.", "anchors": ["src/Model/DecisionTree/DecisionNode.cpp:42-86", "src/Model/DecisionTree/DecisionNode.cpp:164-199", "src/Model/DecisionTree/DecisionCondition.cpp:52-75", "src/Model/DecisionTree/DecisionTree.cpp:57-69", "src/Model/Ensemble/BaggingModel.cpp:18-24", "src/Model/Ensemble/RandomForestModel.cpp:15-21"]}
{"id": "C156", "title": "Only the order of the numbers matters to an unpruned tree", "statement": "Change the numbers of the training data in a way that keeps, within each feature, which of two instances has the smaller number and which have equal numbers (for example by an increasing function such as a logarithm, another one for each feature). Training an unpruned decision tree or a decision stump on the changed data gives the same tree but for the numbers in the conditions: same features in the same places, same labels and counts in every node; every training instance gets the same answer and the same probabilities as before, so the accuracy measured on the training data is the same. The trees of bagging and of a random forest are the same in this sense one by one, each answering alike to the instances drawn for it. A new query between two training values can get another answer, hence also the training data of a pruned tree and of bagging.", "quantifier": "all tabular training sets with numbers, texts and indexed features, all order-keeping changes, every entropy, midpoint, feature draw, bootstrap draw and depth bound; composite instances included", "why_tests_cant": "There is no bound on the ways to transform a feature; a test can try one transformation of one data set.", "anchors": ["src/Model/DecisionTree/DecisionNode.cpp:111-213", "src/Model/DecisionTree/DecisionNode.cpp:42-86", "src/InstanceList/InstanceList.cpp:sort", "src/Model/DecisionTree/DecisionStump.cpp:15-17", "src/Model/Ensemble/BaggingModel.cpp:18-24", "src/Model/Ensemble/RandomForestModel.cpp:15-21"]}
{"id": "C157", "title": "Leaving one out and the majority classifier", "statement": "A cross validation of the majority classifier (DummyModel) with as many folds as instances succeeds, leaves every instance out exactly once and answers it with a most frequent class of the others, so each result has accuracy 1 or 0. Two consequences: if the classes all have the same number of instances (at least two classes), every single answer is wrong and the mean accuracy is 0, not one over the number of classes; if one class is at least two instances ahead of every other, it is the answer each time and the mean accuracy is the share of that class in the data. One instance ahead is not enough: then the names of the classes decide.", "quantifier": "all data sets of plain instances, any number of classes, any seed, every sampling library that makes cross validation folds none of which is empty", "why_tests_cant": "The statement is about all data sets, their sizes and class counts; a test fixes one.", "anchors": ["src/Experiment/KFoldRun.cpp:25-51", "src/Model/DummyModel.cpp:23-30", "src/Model/DummyModel.cpp:64-66", "src/Model/Model.cpp:test", "src/Performance/ConfusionMatrix.cpp:29-36", "src/Performance/ExperimentPerformance.cpp:98-108"]}
{"id": "C158", "title": "The answer is a label with the highest reported probability", "statement": "For every classifier of the library, after any training and for every plain query that is both answered by predict and given a map by predictProbability: no label has a larger number in the map than the answer, and the answer itself is in the map. For a composite query the same holds among its possible labels, for every classifier but the random one. The classifiers that count labels (nearest neighbours, trees, bagging, random forests, the majority and the random classifier) report a positive number for every plain query they answer.", "quantifier": "all classifiers, training lists, parameters, previous states, queries; for networks all weights and sizes", "why_tests_cant": "Two functions of eight classes that work from separately stored data (label and counts of a node, votes, outputs) must agree for every trained model and query; tests compare them on a few.", "anchors": ["src/Model/Model.h:24", "src/Model/NonParametric/KnnModel.cpp:32-41", "src/Model/NonParametric/KnnModel.cpp:94-97", "src/Model/DecisionTree/DecisionNode.cpp:222-254", "src/Model/DecisionTree/DecisionNode.cpp:335-346", "src/Model/Ensemble/TreeEnsembleModel.cpp:21-27", "src/Model/Ensemble/TreeEnsembleModel.cpp:53-59", "src/Model/DummyModel.cpp:23-30", "src/Model/DummyModel.cpp:53-55", "src/Model/RandomModel.cpp:24-35", "src/Model/RandomModel.cpp:61-67", "src/Model/NeuralNetwork/NeuralNetworkModel.cpp:154-162", "src/Model/NeuralNetwork/NeuralNetworkModel.cpp:189-197"]}
{"id": "C159", "title": "Averages, deviations and normalised values survive rounding", "statement": "With every operation rounded, as in binary64: the average of a feature lies between any two whole numbers that all its values lie between; the standard deviation of finite values is not negative and not NaN; normalisation with a finite average and a finite deviation above 0 keeps the order of the values and puts those up to the average at or below 0 and the others at or above; a feature with the same small whole number everywhere has exactly that average, deviation 0, and normalises to NaN. In binary64 the average of n values is within (n+1) * 2^-52 times their mean magnitude of the exact one.", "quantifier": "all lists, values, roundings (monotone, symmetric, exact on whole numbers up to 2^53) and square roots; lists up to 2^53 (2^52 for the error) instances", "why_tests_cant": "Rounding depends on the exact bits and order of all values; tests compare a few averages with a tolerance.", "anchors": ["src/InstanceList/InstanceList.cpp:279-298", "src/InstanceList/InstanceList.cpp:306-329", "src/InstanceList/InstanceList.cpp:338-353", "src/InstanceList/InstanceList.cpp:361-403", "src/Filter/Normalize.cpp:14-33"]}
{"id": "C160", "title": "What the saved file of a tree, forest or network says", "statement": "The file of a tree has one line for each entry: for every node, top down, its feature (-1 for the root, which has no condition), its comparison sign, its type and its value, the number of its children, and the label of a leaf. Every tree that growing or pruning returns can be written. A forest is the number of trees and the trees; a network is the number of classes, the number of inputs and the labels, which load restores. The file decides the answers: two grown trees with the same file give the same answer to every plain query that ends in a leaf.", "quantifier": "all trees, forests, label lists, queries, number formats", "why_tests_cant": "Whether files of different models can coincide is a statement about all pairs of trees; tests save one.", "anchors": ["src/Model/DecisionTree/DecisionCondition.cpp:94-107", "src/Model/DecisionTree/DecisionCondition.cpp:113-132", "src/Model/DecisionTree/DecisionNode.cpp:295-305", "src/Model/DecisionTree/DecisionTree.cpp:75-77", "src/Model/Ensemble/TreeEnsembleModel.cpp:33-38", "src/Model/NeuralNetwork/NeuralNetworkModel.cpp:168-174", "src/Model/NeuralNetwork/NeuralNetworkModel.cpp:222-230"]}
{"id": "C161", "title": "Choosing features commutes with what is done to lists of instances", "statement": "Choosing features first, or sorting, shuffling, drawing with replacement or dividing the list first, gives the same result. The statistics of a chosen feature (averages, deviations, value counts, counts by class) are those of the same feature of the full list, however the features are ordered. Normalising and then choosing is choosing and then normalising. The covariance matrix of the chosen features is the part of the full one at these rows and columns. Choosing each feature at most once never increases a distance.", "quantifier": "all lists of instances, feature choices (also repeated or empty), thresholds, seeds, random number functions", "why_tests_cant": "It compares two orders of calls for every list and every choice of features; a test compares them for one.", "anchors": ["src/Instance/Instance.cpp:189-195", "src/InstanceList/InstanceList.cpp:204-211", "src/InstanceList/InstanceList.cpp:279-298", "src/InstanceList/Partition.cpp:106-114", "src/Filter/Normalize.cpp:14-33", "src/InstanceList/InstanceList.cpp:545-563", "src/DistanceMetric/EuclidianDistance.cpp:17-32"]}
{"id": "C162", "title": "Naive Bayes and k-means judge every feature by itself", "statement": "Trained on any choice of features, the score that naive Bayes gives to a class is the logarithm of the class's frequency plus one part for every chosen feature; for k-means it is the sum of the parts alone. The part of a feature depends on that feature of the training data and of the query only, not on which other features were chosen or in what order. Hence if two classes are equally frequent (k-means: in any case) and every feature by itself speaks for the first rather than the second, so do all features together. This is not so for nearest neighbours, decision trees and the linear discriminant.", "quantifier": "all training lists of texts or of finite numbers, all choices of features with repetitions, all queries and classes, any logarithm", "why_tests_cant": "It relates the models trained on all subsets of the features; a test trains a few of them.", "anchors": ["src/Model/Parametric/NaiveBayesModel.cpp:20-70", "src/Model/Parametric/NaiveBayesModel.cpp:100-136", "src/Model/Parametric/KMeansModel.cpp:21-28", "src/Instance/Instance.cpp:189-195"]}
{"id": "C163", "title": "Putting ensembles together", "statement": "The order of the trees in an ensemble matters neither for the answer nor for the probabilities. If two ensembles answer a query alike, the ensemble of all their trees answers so too, ties included, and its probabilities are the means of theirs weighted by their sizes. Having every tree the same number of times changes nothing; hence training a bagging or random forest model twice on the same data, which doubles its trees, changes no answer and no probability. A larger ensemble starts with the trees of the smaller one, and a lead of more votes than trees are added is never lost. Two ensembles that disagree may together answer what neither of them answers. The most frequent class of two lists behaves alike.", "quantifier": "all lists of trees, all queries, all training lists, sizes and parameters, whatever the random choices", "why_tests_cant": "It relates the answers of all ways to order, repeat, split and enlarge an ensemble; a test fixes one ensemble.", "anchors": ["src/Model/Ensemble/TreeEnsembleModel.cpp:21-27", "src/Model/Ensemble/TreeEnsembleModel.cpp:53-59", "src/Model/Ensemble/BaggingModel.cpp:18-24", "src/Model/Ensemble/RandomForestModel.cpp:15-21", "src/Model/DummyModel.cpp:23-30"]}
{"id": "C164", "title": "Putting training data together", "statement": "If training data are put together from parts, the k nearest neighbours of a query in all of them, also their order and whatever ties there are, are the k nearest among the neighbours found in the parts; asking fewer neighbours gives the first ones of more. So if the neighbours in every part all carry the same label, that is the answer for the data together, and the class distribution is the sum of those of the parts. A mere majority of neighbours, the nearer class mean and the answer of a decision tree may be lost: two parts answer alike and the data together answer differently.", "quantifier": "all divisions of a training list into parts, all queries with and without possible labels, every distance that gives numbers, every k", "why_tests_cant": "It relates the models trained on all parts of a list to the model trained on the list; tests train on one list.", "anchors": ["src/Model/NonParametric/KnnModel.cpp:32-41", "src/Model/NonParametric/KnnModel.cpp:53-70", "src/Model/NonParametric/KnnModel.cpp:94-97", "src/InstanceList/InstanceList.cpp:463-469", "src/Model/Parametric/KMeansModel.cpp:53-61"]}
{"id": "C165", "title": "What repeating a cross validation does to summaries and tests", "statement": "With a model that forgets its earlier training, an MxK fold run (plain or stratified) that succeeds once gives the results of a single K fold run, over and over. So the mean error stays, the reported standard deviation gets smaller unless all results are equal, and the statistic of the paired t test is multiplied by the square root of (M K - 1) / (K - 1), which is more than one, without any new evidence: at every level between the two entries of the t table the single run decides nothing and the repeated run finds a difference. The sign test counts every pair M times and overflows from thirteen counted pairs on.", "quantifier": "all models whose training does not depend on their state, all data sets, K, M and seeds, all pairs of experiments with finite error rates", "why_tests_cant": "It relates runs of all lengths and the decisions drawn from them; a test compares one pair of runs at one level.", "anchors": ["src/Experiment/MxKFoldRun.cpp:24-31", "src/Experiment/StratifiedMxKFoldRun.cpp:24-32", "src/Experiment/KFoldRun.cpp:41-46", "src/StatisticalTest/Pairedt.cpp:15-49", "src/StatisticalTest/Sign.cpp:43-66", "src/StatisticalTest/PairedTest.cpp:19-33"]}
{"id": "C166", "title": "The name of a list of instances", "statement": "Dividing a list by class gives one list per label in the order of first occurrence, and getClassLabel of each is the label of everything in it; so the casts by which LDA, QDA and naive Bayes ask for the name are defined and name the right class. Every other way of dividing (by a word, an index, a threshold, a share) gives lists without a name, for which getClassLabel is the empty text. Dividing one of the lists again gives that list and its name. The name does not follow later changes: after adding an instance of another class it is wrong.", "quantifier": "all lists of instances, all ways of dividing them, all later changes of the lists", "why_tests_cant": "It speaks about every list of every division and about all later changes; a test looks at one division.", "anchors": ["src/InstanceList/InstanceListOfSameClass.cpp:12-23", "src/InstanceList/InstanceList.h:37", "src/InstanceList/Partition.cpp:68-178", "src/Model/Parametric/LdaModel.cpp:94", "src/Model/Parametric/QdaModel.cpp:63", "src/Model/Parametric/NaiveBayesModel.cpp:103"]}
{"id": "C167", "title": "The solution of a two-class problem", "statement": "A SolutionInfo is a number rho and an array of multipliers: a write is seen at its position only and changes neither rho nor the number of multipliers; a position outside the array is undefined behaviour for reading and writing. The solver returns one multiplier for each sample. The loop at the end of solveSingle multiplies every multiplier by the label of its sample, and its result is what training uses.", "quantifier": "all solutions, positions, values and labels", "why_tests_cant": "It speaks about all positions and lengths; a test reads back a few.", "anchors": ["src/Model/Svm/SolutionInfo.cpp:13-45", "src/Model/Svm/SvmModel.cpp:151-168"]}
{"id": "C168", "title": "Leaving a class out of the training data, or adding one", "statement": "If a k-means classifier does not answer c, then trained on the same data without the instances of class c it gives the same answer: a class that is added takes answers for itself only, and several classes may be left out at once. The same holds for the dummy classifier on plain queries, for every search for the best score in which the scores of the other classes stay or all move by the same amount, and so for naive Bayes and quadratic discriminants, whose class frequencies all grow by the same factor. Of a support vector machine the two-class problems of the other pairs stay as they are, so a class that wins against every other class is the answer with and without the class left out; an answer that does not win every pair may change. It is false for linear discriminants, whose covariance is pooled over all classes, for nearest neighbours, where the class takes places among the neighbours, and for decision trees, where it decides which feature is asked.", "quantifier": "all training data, classes, queries (also composite ones for k-means) and distances", "why_tests_cant": "It compares two trainings for every query and every class; a test compares a few answers.", "anchors": ["src/Model/Parametric/GaussianModel.cpp:15-45", "src/Model/Parametric/KMeansModel.cpp:21-61", "src/Model/DummyModel.cpp:23-30", "src/Model/Svm/SvmModel.cpp:51-77", "src/Model/NonParametric/KnnModel.cpp:32-70", "src/Model/DecisionTree/DecisionNode.cpp:60-170"]}
