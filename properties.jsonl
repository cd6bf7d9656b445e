{"id": "C01", "title": "Unbinned data set behaves as a list of accepted events", "statement": "After any sequence of addEvent / addEvent(values) / addWeightedEvent / setValueForAllEvents / clear / loadEvent calls on an UnbinnedDataSet, getNumEvents() is the number of events accepted since the last clear, getValue(var,i) returns the value variable var had when the i-th accepted event was added (as later overwritten only by setValueForAllEvents), and a call that throws leaves the stored events unchanged.", "quantifier": "every finite history of calls, every number of observables, every value", "why_tests_cant": "A test replays one short history; the claim is a refinement over all histories including every position at which a call is rejected.", "anchors": ["src/goofit/UnbinnedDataSet.cpp:UnbinnedDataSet::addEvent,getValue,loadEvent,setValueForAllEvents", "src/goofit/DataSet.cpp:DataSet::addEvent,checkAllVars", "include/goofit/UnbinnedDataSet.h"]}
{"id": "C02", "title": "An event outside the limits is rejected, one inside is accepted", "statement": "addEvent accepts the event exactly when every observable with distinct limits satisfies lower <= value <= upper, with NaN never accepted, and observables whose limits coincide are never checked; a rejected addEvent throws OutOfRange and adds nothing.", "quantifier": "every observable list and every IEEE double assignment of values and limits, NaN and infinities included", "why_tests_cant": "The boundary is over all doubles, including NaN and infinities, in all positions of the observable list.", "anchors": ["include/goofit/Variable.h:Indexable::operator bool", "src/goofit/DataSet.cpp:DataSet::checkAllVars"]}
{"id": "C03", "title": "A copy of a Variable or Observable is a handle to the same quantity", "statement": "Setting the value, error, limits, number of bins or fixed flag through any copy is what every other copy reads afterwards, copies of different originals never interfere, and two handles compare equal exactly when they come from the same original.", "quantifier": "every history of creations, copies, reads and writes", "why_tests_cant": "Aliasing must hold for every interleaving of copies and writes; tests exercise one.", "anchors": ["include/goofit/Variable.h:Indexable,Variable,Observable"]}
{"id": "C04", "title": "fillWithGrid enumerates every grid point exactly once", "statement": "On an empty UnbinnedDataSet, fillWithGrid adds exactly the product of the bin counts of the non-counting observables, event k is the point whose coordinate along observable j is the centre of bin (k / product of earlier bin counts) mod nbins_j, so each grid cell centre occurs exactly once, and EventNumber observables hold 0,1,2,...", "quantifier": "every number of observables and all bin counts", "why_tests_cant": "The number of grid points is a product of arbitrary factors and the order is defined by a recursion over the observable list.", "anchors": ["src/goofit/UnbinnedDataSet.cpp:make_a_grid,UnbinnedDataSet::fillWithGrid"]}
{"id": "C05", "title": "Matrix import/export round trip", "statement": "from_matrix of an observables-by-events matrix followed by to_matrix returns the same matrix when every event is in range; with the event-index row left out, the added index row continues counting from the current number of events.", "quantifier": "every matrix shape and content, every number of events already present", "why_tests_cant": "Row/column transposition errors only show for particular shapes; the index counter depends on the history.", "anchors": ["include/goofit/UnbinnedDataSet.h:from_matrix,to_matrix", "src/goofit/UnbinnedDataSet.cpp"]}
{"id": "C06", "title": "Global bin number and local bin numbers are a bijection", "statement": "For a BinnedDataSet, converting a global bin to local bins and back is the identity on 0..getNumBins()-1, and converting in-range local bins to a global bin and back is the identity; as long as the number of bins fits the integer types used.", "quantifier": "every number of dimensions and all bin counts", "why_tests_cant": "Mixed-radix arithmetic in any number of dimensions with 32-bit accumulators; only a proof covers all radices.", "anchors": ["src/goofit/BinnedDataSet.cpp:localToGlobal,globalToLocalBins,getBinNumber"]}
{"id": "C07", "title": "Every accepted value falls in the bin that contains it", "statement": "For a value that addEvent accepts (lower <= v <= upper), the bin that is incremented is the bin whose half-open interval contains the value, and the bin number is smaller than the number of bins.", "quantifier": "every observable, bin count and accepted value", "why_tests_cant": "The failing values (the inclusive upper edge; values that round up) are isolated points of the input space.", "anchors": ["src/goofit/BinnedDataSet.cpp:getBinNumber,localToGlobal,addEvent", "include/goofit/Variable.h:operator bool"]}
{"id": "C08", "title": "Histogram contents are the sums of the weights filled into each bin", "statement": "After any history of addEvent and addWeightedEvent, getBinContent(b) is the sum of the weights of the events whose bin is b, plus nothing else; other bins never change; getNumEvents() counts the calls.", "quantifier": "every history and every bin layout", "why_tests_cant": "The statement quantifies over all fill histories.", "anchors": ["src/goofit/BinnedDataSet.cpp:addEvent,addWeightedEvent,getBinContent,setBinContent"]}
{"id": "C09", "title": "The weighted number of events is the sum of the weights", "statement": "BinnedDataSet::getNumWeightedEvents() equals the sum of the bin contents.", "quantifier": "every bin content vector", "why_tests_cant": "Fractional weights are lost only in particular positions; the claim is for every content vector.", "anchors": ["src/goofit/BinnedDataSet.cpp:getNumWeightedEvents"]}
{"id": "C10", "title": "Bin centres and volumes describe the binning", "statement": "getBinCenter(var,b) is the midpoint of the interval of bin b, the bin found for the centre is b again, and the volumes of all bins add up to the volume of the box spanned by the limits.", "quantifier": "every number of dimensions, limits and bin counts", "why_tests_cant": "Sums over all bins of arbitrary layouts.", "anchors": ["src/goofit/BinnedDataSet.cpp:getBinCenter,getBinVolume,getBinSize"]}
{"id": "C11", "title": "Bin errors", "statement": "Until setBinError is called the error of a bin is the square root of its content; after setBinError(b,e) the error of b is e and the error of every bin that was not set is what it was before the call.", "quantifier": "every history of fills and setBinError calls", "why_tests_cant": "The first setBinError call silently changes the meaning of all other bins; history dependent.", "anchors": ["src/goofit/BinnedDataSet.cpp:getBinError,setBinError"]}
{"id": "C12", "title": "Flattened evaluation computes the PDF tree", "statement": "For every PDF tree built from leaf PDFs that advance the cursor by what they registered and from AddPdf, ProdPdf, CompositePdf-free combinations, MappedPdf and EventWeightedAddPdf, evaluating the flattened arrays from the root position returns the mathematical value of the tree, each component reading its own parameters, constants, observables and normalisation.", "quantifier": "every tree shape and depth, every parameter value and event", "why_tests_cant": "The moving-cursor evaluation is correct only if every node at every depth leaves the cursor exactly after its subtree.", "anchors": ["src/PDFs/PdfBase.cu:recursiveSetIndices,populateArrays", "src/PDFs/ParameterContainer.cu", "src/PDFs/combine/AddPdf.cu:device_AddPdfs", "src/PDFs/combine/ProdPdf.cu", "src/PDFs/combine/MappedPdf.cu", "src/PDFs/MetricTaker.cu"]}
{"id": "C13", "title": "The metric called after evaluation is the one selected by the fit control", "statement": "After evaluating the model function for an event, the function table entry reached by the cursor is the metric chosen with setFitControl, for every model tree.", "quantifier": "every tree", "why_tests_cant": "If any PDF in the tree moves the cursor by a different amount than it registered, a PDF function is called as if it were a metric.", "anchors": ["src/PDFs/MetricTaker.cu:operator()", "src/PDFs/GooPdf.cu:setIndices"]}
{"id": "C14", "title": "Each basic PDF consumes exactly what it registers", "statement": "For each basic PDF class and each of its constructors, the amounts by which its device function advances the cursor equal the number of parameters, constants, observables and normalisations the constructor registers, whatever the number of coefficients, observables or bins.", "quantifier": "every PDF class and every size of its argument vectors", "why_tests_cant": "Sizes (degree, number of weights, dimensions) are unbounded.", "anchors": ["src/PDFs/basic/*.cu", "src/PDFs/utilities/VariableBinTransform1DPdf.cu"]}
{"id": "C15", "title": "Parameter refresh equals rebuild", "statement": "After changing parameter values, the incremental refresh of the flattened parameter array gives the array that flattening the tree from scratch with the new values would give.", "quantifier": "every tree and every parameter assignment, including variables shared between components", "why_tests_cant": "Shared variables and nesting give unboundedly many layouts.", "anchors": ["src/PDFs/PdfBase.cu:updateParameters", "src/goofit/PdfBase.cpp:updateVariable"]}
{"id": "C16", "title": "getParameters lists every parameter of the tree", "statement": "getParameters returns every Variable used by the PDF or one of its components; no variable that is not used; and parameters of components are listed at most once.", "quantifier": "every tree with arbitrary sharing", "why_tests_cant": "Sharing patterns are unbounded.", "anchors": ["src/goofit/PdfBase.cpp:getParameters,getObservables"]}
{"id": "C17", "title": "Observable numbering", "statement": "setupObservables gives the observables of the top-level PDF the consecutive event-buffer columns 0..n-1 in getObservables() order, the same Observable has one column wherever it is used, and distinct observables have distinct columns.", "quantifier": "every tree and sharing pattern", "why_tests_cant": "Sharing patterns are unbounded.", "anchors": ["src/PDFs/PdfBase.cu:setupObservables", "src/goofit/PdfBase.cpp:getObservables"]}
{"id": "C18", "title": "AddPdf of normalised components is normalised", "statement": "For N components and N-1 weights, the last weight is one minus the sum of the others and the integral of the AddPdf over the grid is 1 when each component is normalised; for N weights it is the weighted mean.", "quantifier": "every number of components, all weights and component values", "why_tests_cant": "Weighted sums over any number of components.", "anchors": ["src/PDFs/combine/AddPdf.cu:device_AddPdfs,device_AddPdfsExt,normalize"]}
{"id": "C19", "title": "Extended likelihood term", "statement": "For an extended AddPdf the likelihood passed to the minimiser is the sum of the event terms plus E - n log E, where E is the sum of the weights and n the number of events; for unextended ones nothing is added.", "quantifier": "every number of components, weights and events", "why_tests_cant": "Depends on the number of events and weights at every call.", "anchors": ["src/PDFs/combine/AddPdf.cu:sumOfNll"]}
{"id": "C20", "title": "ProdPdf normalisation factorises", "statement": "When the components depend on disjoint observables the product of separately normalised components integrates to one; when they share an observable ProdPdf must detect it and normalise the product as a whole.", "quantifier": "every list of components and observables", "why_tests_cant": "Detection must work for every pair of components in every order.", "anchors": ["src/PDFs/combine/ProdPdf.cu:ProdPdf,normalize,device_ProdPdfs"]}
{"id": "C21", "title": "MappedPdf evaluates the selected component and leaves the cursor at the end", "statement": "MappedPdf returns the normalised value of component floor(0.5+map(x)) whenever that number is a valid component, and the other components have no influence; the cursor ends after the last component.", "quantifier": "every number and shape of target PDFs and every map value in range", "why_tests_cant": "Targets are arbitrary subtrees.", "anchors": ["src/PDFs/combine/MappedPdf.cu"]}
{"id": "C22", "title": "Unbinned NLL is the sum of -log(P/N)", "statement": "For unbinned data the value reported by calculateNLL is the sum over all events of -log(P(x_i)/N) for events with positive density; every event is read exactly once from its own slot of the event buffer.", "quantifier": "every number of events, observables and values", "why_tests_cant": "Indexing over arbitrary event counts and strides.", "anchors": ["src/PDFs/MetricTaker.cu", "src/PDFs/MetricPointer.cu", "src/PDFs/GooPdf.cu:reduce_with_metric"]}
{"id": "C23", "title": "Numerical normalisation samples every grid cell centre once", "statement": "When a PDF has no analytic integral, normalize() is the cell volume times the sum of the density at the centre of every cell of the grid spanned by its observables, in any number of dimensions.", "quantifier": "every number of dimensions, limits and bin counts", "why_tests_cant": "Grid size and dimension are unbounded; the event vector passed to the function is partly uninitialised when an index is missed.", "anchors": ["src/PDFs/MetricTaker.cu:operator() (binned)", "src/PDFs/GooPdf.cu:normalize"]}
{"id": "C24", "title": "Analytic integrals agree with the density", "statement": "For the PDFs that declare an analytic integral (ExpPdf, GaussianPdf, StepPdf, JohnsonSUPdf), integrate(lo,hi) is the integral of the density over [lo,hi].", "quantifier": "every parameter value and every range lo<hi", "why_tests_cant": "An integral identity over all real parameters.", "anchors": ["src/PDFs/basic/ExpPdf.cu", "src/PDFs/basic/GaussianPdf.cu", "src/PDFs/basic/StepPdf.cu", "src/PDFs/basic/JohnsonSUPdf.cu"]}
{"id": "C25", "title": "Unbinned event buffer layout", "statement": "After setData with an UnbinnedDataSet the device buffer holds, for every event i and every observable j of the PDF, the value of that observable in event i at position i*n+j.", "quantifier": "every number of events, observables and order of observables in the data set", "why_tests_cant": "Index arithmetic over arbitrary sizes.", "anchors": ["src/PDFs/GooPdf.cu:setData"]}
{"id": "C26", "title": "Binned event buffer layout", "statement": "After setData with a BinnedDataSet the buffer holds for every bin its centre coordinates, its content and its volume (or error when the fit control uses bin errors).", "quantifier": "every binning", "why_tests_cant": "Index arithmetic over arbitrary sizes.", "anchors": ["src/PDFs/GooPdf.cu:setData"]}
{"id": "C27", "title": "Reads of the event buffer stay inside it", "statement": "Whatever sequence of setData, setFitControl, fitTo, getValue, evaluateAtPoints, calculateNLL is performed, each event read lies inside the buffer of the data set currently attached.", "quantifier": "every history of API calls", "why_tests_cant": "Stride and fit control depend on the history.", "anchors": ["src/PDFs/GooPdf.cu:setData,setFitControl,get_event_size,evaluateAtPoints,getValue"]}
{"id": "C28", "title": "Queries do not change the model", "statement": "getValue, evaluateAtPoints, getCompProbsAtDataPoints and calculateNLL leave the fit control, the data and the values of the observables as they found them.", "quantifier": "every history of API calls", "why_tests_cant": "A side effect shows only in the result of a later call.", "anchors": ["src/PDFs/GooPdf.cu:getValue,evaluateAtPoints,getCompProbsAtDataPoints,calculateNLL"]}
{"id": "C29", "title": "Data attached to one PDF is not disturbed by another", "statement": "Attaching data to one PDF does not change the data another PDF is evaluated on.", "quantifier": "every pair of PDFs and history", "why_tests_cant": "Global state; shows only for particular interleavings.", "anchors": ["src/PDFs/GooPdf.cu:setData", "src/PDFs/detail/Globals.cu:dev_event_array"]}
{"id": "C30", "title": "MPI split of the events", "statement": "Under MPI every event is processed by exactly one rank, the ranks' blocks are consecutive and in order, and the sum of the per-rank NLL sums equals the NLL of the whole data set.", "quantifier": "every number of events and ranks, including fewer events than ranks", "why_tests_cant": "All event and rank counts.", "anchors": ["src/PDFs/GooPdf.cu:setData (GOOFIT_MPI)", "src/PDFs/GooPdf.cu:evaluate_with_metric"]}
{"id": "C31", "title": "MPI split of binned data", "statement": "Under MPI with binned data every bin is processed by exactly one rank.", "quantifier": "every number of bins and ranks", "why_tests_cant": "All bin and rank counts.", "anchors": ["src/PDFs/GooPdf.cu:setData (GOOFIT_MPI)"]}
{"id": "C32", "title": "Minimiser vector to parameters", "statement": "After the cost function is called with a vector v, every parameter of the PDF has the value v[its index] minus its blinding offset, and the flattened parameter array holds these values.", "quantifier": "every parameter set, vector and blinding", "why_tests_cant": "Quantifies over all vectors and sharing patterns.", "anchors": ["src/goofit/Params.cpp:from_minuit_vector", "src/goofit/FCN.cpp", "src/goofit/PdfBase.cpp:updateVariable"]}
{"id": "C33", "title": "Changed flag", "statement": "After the parameters are updated, a parameter reports changed() exactly when its value differs from the value used in the previous evaluation.", "quantifier": "every sequence of cost function calls, with or without blinding", "why_tests_cant": "History property.", "anchors": ["src/goofit/Params.cpp:from_minuit_vector", "include/goofit/Variable.h:Variable::setChanged,changed"]}
{"id": "C34", "title": "Evaluating the cost function at the current point changes nothing", "statement": "FCN::operator()() evaluates the model at the current parameter values and leaves them unchanged.", "quantifier": "every parameter set and blinding", "why_tests_cant": "Only wrong for blinded parameters and repeated calls.", "anchors": ["src/goofit/FCN.cpp:operator()", "src/goofit/Params.cpp:make_minuit_vector"]}
{"id": "C35", "title": "Fit results are written back", "statement": "After a fit every parameter holds the value and error the minimiser reports for it, fixed parameters are not varied and limits are passed exactly when the limits differ.", "quantifier": "every parameter set", "why_tests_cant": "All mixtures of fixed, free and limited parameters, in any order.", "anchors": ["src/goofit/Params.cpp:Params,SetGooFitParams", "src/goofit/FitManagerMinuit2.cpp"]}
{"id": "C36", "title": "Caches are refreshed whenever an input changed", "statement": "Cached intermediate results (convolution arrays, resonance waves and integrals) used in an evaluation are those of the current parameter values.", "quantifier": "every history of parameter updates and evaluations", "why_tests_cant": "Staleness appears only for particular update histories.", "anchors": ["src/goofit/PdfBase.cpp:parametersChanged", "src/PDFs/combine/ConvolutionPdf.cu:normalize", "src/PDFs/physics/Amp3Body.cu:normalize", "src/PDFs/physics/Amp4Body.cu:normalize"]}
{"id": "C37", "title": "Parameter file round trip", "statement": "readFromFile after writeToFile restores the value, error and limits of every parameter written, whatever other names the file or the PDF contains.", "quantifier": "every parameter set with whitespace-free names, every file content order", "why_tests_cant": "All name sets and values; precision loss shows only for some values.", "anchors": ["src/goofit/FunctorWriter.cpp:writeToFile,readFromFile"]}
{"id": "C38", "title": "List of numbers round trip", "statement": "readListOfNumbers after writeListOfNumbers gives the numbers written; reading a missing file is an error.", "quantifier": "every list of numbers", "why_tests_cant": "All lists, including the empty one.", "anchors": ["src/goofit/FunctorWriter.cpp:readListOfNumbers,writeListOfNumbers"]}
{"id": "C39", "title": "Neumaier summation", "statement": "doNeumaierSummation returns the sum of its inputs: exactly in real arithmetic, and in IEEE arithmetic the correction applied at each step is the exact rounding error of that step.", "quantifier": "every list of doubles without overflow", "why_tests_cant": "Rounding behaviour over all doubles.", "anchors": ["src/goofit/MathUtils.cpp:doNeumaierSummation"]}
{"id": "C40", "title": "Uncertain arithmetic", "statement": "Uncertain values combine as independent quantities: sums add absolute uncertainties in the documented way and products relative uncertainties; uncertainties stay non-negative.", "quantifier": "all values and uncertainties", "why_tests_cant": "Algebraic law over all reals.", "anchors": ["include/goofit/utilities/Uncertain.h"]}
{"id": "C41", "title": "Device copies follow the host arrays", "statement": "After sync or smart_sync the device copy of a host array equals the host array, for any history of pushes, clears, writes and syncs.", "quantifier": "every history", "why_tests_cant": "History property.", "anchors": ["include/goofit/detail/SmartVectorGPU.h", "include/goofit/detail/SmartVectorCPU.h"]}
{"id": "C42", "title": "Convolution reads inside its work space", "statement": "Evaluating a ConvolutionPdf reads only initialised cells of the cached resolution array, for all data ranges, integration ranges and step sizes that setIntegrationConstants accepts.", "quantifier": "all integration constants and observable values in range", "why_tests_cant": "Rounding of range/step ratios.", "anchors": ["src/PDFs/combine/ConvolutionPdf.cu:device_ConvolvePdfs,setIntegrationConstants,normalize"]}
{"id": "C43", "title": "Smoothed histogram", "statement": "The smoothed histogram value of a bin is (H(b)+s*sum over existing neighbours incl. diagonals H(n))/(1+s*number of them), reading only existing bins, in any dimension.", "quantifier": "every dimension, bin counts and contents", "why_tests_cant": "3^n neighbours and borders in any dimension.", "anchors": ["src/PDFs/basic/SmoothHistogramPdf.cu:Smoother::operator()"]}
{"id": "C44", "title": "Multi-dimensional polynomial coefficients", "statement": "The number of coefficients PolynomialPdf demands for n observables and maximal degree N is the number of monomials of total degree at most N, and evaluation uses coefficient k for the k-th monomial in the documented order.", "quantifier": "every n and N", "why_tests_cant": "Combinatorial identity over all n, N.", "anchors": ["src/PDFs/basic/PolynomialPdf.cu"]}
{"id": "C45", "title": "Bernstein basis", "statement": "BernsteinPdf with all coefficients equal to c evaluates to c divided by the width of the range (partition of unity), and it is non-negative for non-negative coefficients.", "quantifier": "every degree and every point in range", "why_tests_cant": "All degrees.", "anchors": ["src/PDFs/basic/BernsteinPdf.cu"]}
{"id": "C46", "title": "Phase-space boundary", "statement": "inDalitz accepts a point exactly when it lies inside the kinematic boundary of the three-body decay (non-negative Gram determinant within the mass limits).", "quantifier": "all masses and points", "why_tests_cant": "Inequalities over all reals.", "anchors": ["src/PDFs/physics/DalitzPlotHelpers.cu:inDalitz"]}
{"id": "C47", "title": "Four-momenta reconstruction", "statement": "get4Vecs returns four momenta with the given particle masses whose sum is the mother at rest and whose pair masses are m12 and m34.", "quantifier": "all kinematically allowed inputs", "why_tests_cant": "Identities over all reals.", "anchors": ["src/PDFs/physics/DalitzPlotHelpers.cu:get4Vecs"]}
{"id": "C48", "title": "Coherent-sum normalisation", "statement": "The normalisation of Amp3Body is real, non-negative and equal to the sum over all grid cells of |sum a_i BW_i|^2 times the efficiency times the cell area.", "quantifier": "any number of resonances, amplitudes and grids", "why_tests_cant": "Sesquilinear identity over any number of terms.", "anchors": ["src/PDFs/physics/Amp3Body.cu:normalize", "src/PDFs/physics/detail/SpecialResonanceIntegrator.cu"]}
{"id": "C49", "title": "Fit fractions", "statement": "The matrix returned by fit_fractions is symmetric and its entries sum to one; the diagonal entries are non-negative.", "quantifier": "any number of resonances, waves and amplitudes with non-zero total", "why_tests_cant": "Identity over any number of terms.", "anchors": ["src/PDFs/physics/Amp3Body.cu:fit_fractions"]}
{"id": "C50", "title": "Efficiency component of amplitude PDFs", "statement": "Amp3Body multiplies by the efficiency PDF's value, both in evaluation and in the normalisation integral, for any efficiency PDF, and leaves the cursor after it for events inside and outside the Dalitz plot.", "quantifier": "every efficiency PDF tree", "why_tests_cant": "Efficiency can be an arbitrary tree.", "anchors": ["src/PDFs/physics/Amp3Body.cu:device_DalitzPlot,populateArrays", "src/PDFs/physics/detail/SpecialResonanceIntegrator.cu"]}
{"id": "C51", "title": "Incoherent sum amplitudes", "statement": "Amp3Body_IS weights each resonance with its own amplitude parameter.", "quantifier": "any number of resonances and parameters", "why_tests_cant": "Any number of resonances.", "anchors": ["src/PDFs/physics/Amp3Body_IS.cu"]}
{"id": "C52", "title": "Amplitude cache of four-body decays", "statement": "After normalize() of Amp4Body, the cached amplitude of every event is built from the current lineshape values.", "quantifier": "any assignment of lineshapes to amplitudes and any set of changed lineshapes", "why_tests_cant": "Depends on which lineshape index changes.", "anchors": ["src/PDFs/physics/Amp4Body.cu:normalize"]}
{"id": "C53", "title": "Time integral of the mixing rate", "statement": "TruthResolution::normalization is the integral over decay time from zero to infinity of the rate computed by the resolution function.", "quantifier": "all |y|<1, x, tau>0 and amplitudes", "why_tests_cant": "Improper integral identity.", "anchors": ["src/PDFs/physics/TruthResolution.cu"]}
{"id": "C54", "title": "Monte Carlo generation from a grid", "statement": "The toy generators pick grid cell j exactly when the random number lies between the cumulated probabilities before and after j, never index outside the grid, and return a point inside the chosen cell.", "quantifier": "every grid of non-negative values with positive sum and every random number in [0,1)", "why_tests_cant": "All grids and random numbers.", "anchors": ["src/goofit/PdfBase.cpp:fillMCDataSimple", "include/goofit/PDFs/physics/DalitzPlotter.h:fillDataSetMC"]}
{"id": "C55", "title": "Spline interpolation", "statement": "The cubic spline lineshape/resonance passes through the given complex coefficients at the knots, reads only existing knots, and is zero outside the knots.", "quantifier": "any number of knots and any mass", "why_tests_cant": "Any number of knots.", "anchors": ["src/PDFs/physics/resonances/Spline.cu:cubicspline", "include/goofit/PDFs/detail/ComplexUtils.h"]}
{"id": "C56", "title": "Basic PDFs compute their documented formulas", "statement": "Each basic PDF (Gaussian, exponential, Breit-Wigner, Argus, Johnson SU, Landau, crystal ball, polynomial, ...) returns the value of the formula its documentation gives, with the parameters in the order of its constructor.", "quantifier": "every value of the observable and of the parameters", "why_tests_cant": "A formula must agree at every argument, including branch boundaries and any number of coefficients.", "anchors": ["src/PDFs/basic"]}
{"id": "C57", "title": "Scale of binned fits", "statement": "A binned fit compares the content of every bin with (number of events) x (probability of the bin); the value is the sum over all bins of the likelihood or chi-square term of that comparison.", "quantifier": "every binning, contents and PDF", "why_tests_cant": "All histograms and all bin contents.", "anchors": ["src/PDFs/PdfBase.cu:setData", "src/PDFs/MetricPointer.cu:calculateBinWithError,calculateBinAvg,calculateChisq", "src/PDFs/GooPdf.cu:calculateNLL"]}
{"id": "C58", "title": "Each histogram PDF uses its own histogram", "statement": "A SmoothHistogramPdf evaluates and normalises the histogram last given to it, by its constructor or by copyHistogramToDevice, whatever other histogram PDFs the program creates.", "quantifier": "every order of constructing histogram PDFs, empty or not, and of copyHistogramToDevice calls", "why_tests_cant": "The histograms live in one table shared by all PDFs; a fault needs a particular order of calls.", "anchors": ["src/PDFs/basic/SmoothHistogramPdf.cu:SmoothHistogramPdf,copyHistogramToDevice"]}
{"id": "C59", "title": "Convolution value", "statement": "A ConvolutionPdf is, up to normalisation, the integral over t of model(t) times resolution(x - t) that its documentation gives, computed as a midpoint sum over the integration range: for every model, resolution, range and step, the error vanishes with the step.", "quantifier": "all models, resolutions, integration ranges, steps and observable values", "why_tests_cant": "A test uses one symmetric resolution at a few points.", "anchors": ["src/PDFs/combine/ConvolutionPdf.cu:device_ConvolvePdfs,setIntegrationConstants,normalize", "include/goofit/PDFs/combine/ConvolutionPdf.h"]}
{"id": "C60", "title": "Masses handed to lineshapes", "statement": "Each lineshape of a four-body amplitude is evaluated at the invariant mass of the particles its DP4Pair names, with the masses of its two decay products (a particle or, in the three-particle pairs, the system of the first two).", "quantifier": "all DP4Pair values, all kinematically allowed events and all masses", "why_tests_cant": "Identities over all reals, eighteen pairs.", "anchors": ["src/PDFs/physics/DalitzPlotHelpers.cu:getmass,Mass", "src/PDFs/physics/detail/LSCalculator.cu", "include/goofit/PDFs/physics/DalitzPlotHelpers.h:DP4Pair"]}
{"id": "C61", "title": "Normalisation of Amp4Body is the mean over its normalisation events", "statement": "The number normalize() of an Amp4Body returns is the mean, over the normalisation events of the object, of what the PDF evaluates to at that event before division by the normalisation.", "quantifier": "all amplitudes, coefficients, lineshape and spin factor values, efficiencies, normalisation samples and histories of calls", "why_tests_cant": "Ranges over all functions, samples and histories.", "anchors": ["src/PDFs/physics/Amp4Body.cu:normalize", "src/PDFs/physics/detail/NormIntegrator.cu", "src/PDFs/physics/Amp4Body.cu:device_DP"]}
{"id": "C62", "title": "Generating toy events does not change later normalisations", "statement": "After GenerateSig has been called on an Amp4Body, normalize() returns the same number as if GenerateSig had not been called.", "quantifier": "all amplitudes, histories of calls and positions of GenerateSig in them", "why_tests_cant": "Depends on the whole history.", "anchors": ["src/PDFs/physics/Amp4Body.cu:GenerateSig", "src/PDFs/physics/Amp4Body.cu:normalize"]}
{"id": "C63", "title": "Four-body PDFs in one program do not disturb each other", "statement": "Each Amp4Body of a program uses its own amplitudes, lineshapes and spin factors, however many of them, and however many other such PDFs, the program constructs.", "quantifier": "all programs that construct four-body PDFs, all amplitudes", "why_tests_cant": "Ranges over all programs and sizes.", "anchors": ["src/PDFs/physics/Amp4BodyGlobals.cu:AmpIndices", "src/PDFs/physics/Amp4Body.cu:Amp4Body,populateArrays"]}
{"id": "C64", "title": "Spline resonance is a smooth curve", "statement": "Between its first and last knot the value of a Spline resonance is a twice continuously differentiable function of the mass, for the current coefficients, whatever other splines the program uses.", "quantifier": "any number of knots, any coefficients, any later change of the coefficients, any other splines", "why_tests_cant": "Differentiability concerns every mass; histories and other objects matter.", "anchors": ["src/PDFs/physics/resonances/Spline.cu:recalculateCache,cubicspline", "include/goofit/PDFs/detail/ComplexUtils.h:complex_derivative"]}
{"id": "C65", "title": "GSpline width follows the given values", "statement": "The width of a GSpline lineshape is interpolated from the values given to its constructor: at a knot it is proportional to the value given for the knot, and only the lineshape's own constants are used.", "quantifier": "any values at the knots, any limits and any mass", "why_tests_cant": "All values and masses.", "anchors": ["src/PDFs/physics/lineshapes/GSpline.cu:getSpline,make_spline_curvatures,GSpline"]}
{"id": "C66", "title": "Average decay time", "statement": "The average decay time the truth resolution reports for an event is the mean of the decay time under the event's rate.", "quantifier": "all |y|<1, x, tau>0 and amplitudes with a nonzero rate", "why_tests_cant": "Improper integral identity for all parameters.", "anchors": ["src/PDFs/physics/TruthResolution.cu:device_truth_resolution_average_tau"]}
{"id": "C67", "title": "Mixing rate is a squared amplitude", "statement": "The rate of the truth resolution is twice the squared modulus of the time-dependent amplitude of the mixing meson, so it is never negative.", "quantifier": "all amplitudes, decay times, lifetimes and mixing parameters", "why_tests_cant": "An identity over all real inputs.", "anchors": ["src/PDFs/physics/TruthResolution.cu:device_truth_resolution"]}
{"id": "C68", "title": "Three-Gaussian resolution smears the rate", "statement": "The rate of ThreeGaussResolution at a measured time is the mixing rate times the selection bias exp(-s t), convolved with the sum of the three Gaussians.", "quantifier": "all measured times, errors, fractions, biases, widths, amplitudes, lifetimes and mixing parameters", "why_tests_cant": "Convolution integrals over an unbounded range, for all parameters.", "anchors": ["src/PDFs/physics/ThreeGaussResolution.cu:gaussian,device_threegauss_resolution"]}
{"id": "C69", "title": "Normalisation of the three-Gaussian resolution", "statement": "ThreeGaussResolution::normalization is the integral of its rate over the measured time, and of the rate with its selection bias over the true time.", "quantifier": "all amplitude integrals, lifetimes, mixing parameters and selection biases for which the integrals exist", "why_tests_cant": "Improper integral identity.", "anchors": ["src/PDFs/physics/ThreeGaussResolution.cu:normalization"]}
{"id": "C70", "title": "Resolution with a two-slope acceptance smears the rate", "statement": "The rate of ThreeGaussResolutionExt at a measured time is the mixing rate times an acceptance of two exponentials that meet at a threshold, convolved with the sum of the three Gaussians.", "quantifier": "all measured times, errors, thresholds, slopes, fractions, biases, widths, amplitudes, lifetimes and mixing parameters", "why_tests_cant": "Convolution integrals over an unbounded range, for all parameters.", "anchors": ["src/PDFs/physics/ThreeGaussResolutionExt.cu:gaussian_low,gaussian_high,device_threegauss_resolutionext"]}
{"id": "C71", "title": "Normalisation of the resolution with a two-slope acceptance", "statement": "ThreeGaussResolutionExt::normalization is the integral of its rate over the measured time, and of the rate with its acceptance over the true time.", "quantifier": "all amplitude integrals, lifetimes, mixing parameters, thresholds and slopes for which the integrals exist", "why_tests_cant": "Improper integral identity.", "anchors": ["src/PDFs/physics/ThreeGaussResolutionExt.cu:normalization"]}
{"id": "C72", "title": "Resolution with a spliced acceptance smears the rate", "statement": "The rate of ThreeGaussResolutionSplice at a measured time is the mixing rate times an acceptance, a cubic polynomial between any two neighbouring knots and after the last knot the exponential that continues it smoothly, convolved with the sum of the three Gaussians.", "quantifier": "all measured times, errors, numbers and positions of knots, polynomials, fractions, biases, widths, amplitudes, lifetimes and mixing parameters", "why_tests_cant": "Convolution integrals over an unbounded range, for all parameters and any number of knots.", "anchors": ["src/PDFs/physics/ThreeGaussResolutionSplice.cu:EvaluateConvo,EvaluateKnot,EvaluateKnotSinCos,gaussian_splice,mygaussian_high,device_threegauss_resolutionSplice"]}
{"id": "C73", "title": "Normalisation of the resolution with a spliced acceptance", "statement": "ThreeGaussResolutionSplice::normalization is the integral of its rate over the measured time, and of the rate with its acceptance over the true time.", "quantifier": "all amplitude integrals, lifetimes, mixing parameters, knots and polynomials for which the integrals exist", "why_tests_cant": "Improper integral identity for any number of knots.", "anchors": ["src/PDFs/physics/ThreeGaussResolutionSplice.cu:NormTermY,normalization"]}
{"id": "C74", "title": "Value of the time-dependent Dalitz plot", "statement": "After any history of normalisations on one Amp3Body_TD, its value at an event is the squared modulus of the amplitude of the decay after mixing at that time (A the coherent sum of the resonances, B the same with the masses exchanged), with the mixing parameters of the event's tag, times the efficiency; with a resolution other than the true time, the resolution's rate for these coefficients. It equals the formula given in the header and is not negative.", "quantifier": "all resonances, amplitudes, efficiencies, masses, times, tags, mixing parameters, resolutions and histories of calls", "why_tests_cant": "Universal over events, models and histories of cached waves.", "anchors": ["src/PDFs/physics/Amp3Body_TD.cu:device_Tddp", "include/goofit/PDFs/physics/Amp3Body_TD.h:Amp3Body_TD", "src/PDFs/physics/detail/SpecialWaveCalculator.cu:operator()"]}
{"id": "C75", "title": "Mistagged events in the time-dependent Dalitz plot", "statement": "With a mistag observable b the value of Amp3Body_TD is b times the density plus 1 - b times the density with particle and antiparticle exchanged, as the header says.", "quantifier": "all events, models, lifetimes, mixing parameters and values of the observable", "why_tests_cant": "Algebraic identity for all parameters; the fixed parameters used agree with one test point only.", "anchors": ["src/PDFs/physics/Amp3Body_TD.cu:device_Tddp", "include/goofit/PDFs/physics/Amp3Body_TD.h:mistag"]}
{"id": "C76", "title": "Normalisation of the time-dependent Dalitz plot", "statement": "normalize() of Amp3Body_TD returns the integral over the decay time, summed over the cells of the grid, of the value it gives to events there, with the two tags in the proportion set by setD0Fraction, whatever calls were made before.", "quantifier": "all models, grids, resolutions with a normalisation of their own, proportions, mistags and histories of normalize, getFractions and changes of parameters, limits and data", "why_tests_cant": "Improper integrals and histories of cached integrals.", "anchors": ["src/PDFs/physics/Amp3Body_TD.cu:normalize,setD0Fraction", "src/PDFs/physics/detail/SpecialDalitzIntegrator.cu:operator(),device_Tddp_calcIntegrals"]}
{"id": "C77", "title": "getFractions of the time-dependent Dalitz plot", "statement": "Amp3Body_TD::getFractions returns the fit fractions (interference terms over the total) and leaves later normalisations as they were.", "quantifier": "all models, grids and histories", "why_tests_cant": "Universal over models and histories of cached integrals.", "anchors": ["src/PDFs/physics/Amp3Body_TD.cu:getFractions"]}
{"id": "C78", "title": "Every Dalitz-plot PDF reads its own cached waves", "statement": "With several Amp3Body or Amp3Body_TD PDFs in a program, each reads for each of its resonances the waves that were computed for it.", "quantifier": "all numbers of PDFs and of resonances, all orders of setDataSize calls", "why_tests_cant": "Depends on the number of objects created before and of resonances; unit tests use a few.", "anchors": ["src/PDFs/physics/Amp3Body_TD.cu:cWaves,setDataSize,device_Tddp", "src/PDFs/physics/Amp3Body.cu:cResonances,setDataSize", "include/goofit/PDFs/physics/Amp3Body_TD.h:cachedWaves"]}
{"id": "C79", "title": "A relativistic Breit-Wigner resonance is the published formula", "statement": "The amplitude of RBW at a point of the Dalitz plot is the angular amplitude times the form factors of resonance and mother over m0^2 - s - i m0 Gamma(s), with the mass-dependent width of the given spin, daughters and radius; in particular the width at the nominal mass is the one that was set.", "quantifier": "all masses, widths, spins up to 2, pairs, radii, daughters and points", "why_tests_cant": "Identity of functions over all kinematics.", "anchors": ["src/PDFs/physics/resonances/RBW.cu:plainBW", "src/PDFs/physics/resonances/Resonance.cu:twoBodyCMmom,twoBodyCMMothermom,dampingFactorSquare,dampingFactorSquareNorm,spinFactor"]}
{"id": "C80", "title": "Resonances decay with the angles of their spin", "statement": "At a fixed mass of its pair the amplitude of a resonance of spin 0, 1 or 2 depends on the angle between a daughter and the bachelor as the Legendre polynomial of that spin does.", "quantifier": "all kinds of resonances, parameters, pairs, masses, and momenta of the daughters", "why_tests_cant": "Identity over all momenta.", "anchors": ["src/PDFs/physics/resonances/Resonance.cu:spinFactor", "src/PDFs/physics/resonances/RBW.cu:plainBW", "src/PDFs/physics/resonances/GS.cu:gouSak", "src/PDFs/physics/resonances/LASS.cu:lass", "src/PDFs/physics/resonances/RhoOmegaMix.cu:rhoomgamix"]}
{"id": "C81", "title": "The numbering of the daughters does not matter", "statement": "When the daughters are named anew cyclically and pairs and masses accordingly, every resonance has the same amplitude.", "quantifier": "all kinds of resonances, parameters, masses of the daughters and points", "why_tests_cant": "Relation between two models over all parameters.", "anchors": ["src/PDFs/physics/resonances/GS.cu:gouSak", "src/PDFs/physics/resonances/LASS.cu:lass", "src/PDFs/physics/resonances/RBW.cu:plainBW", "src/PDFs/physics/resonances/FLATTE.cu:flatte", "src/PDFs/physics/resonances/RhoOmegaMix.cu:rhoomgamix"]}
{"id": "C82", "title": "A symmetrised resonance is symmetric", "statement": "A resonance that is created symmetrised has the same amplitude when the two identical daughters are exchanged.", "quantifier": "all kinds of resonances with the switch, parameters, spins and points", "why_tests_cant": "Symmetry over all points and parameters.", "anchors": ["src/PDFs/physics/resonances/RBW.cu:plainBW", "src/PDFs/physics/resonances/GS.cu:GS", "src/PDFs/physics/resonances/FLATTE.cu:flatte", "src/PDFs/physics/resonances/RhoOmegaMix.cu:RhoOmegaMix"]}
{"id": "C83", "title": "Gounaris-Sakurai", "statement": "The amplitude of GS is the Gounaris-Sakurai formula; its phase passes 90 degrees at the nominal mass with slope given by the nominal width.", "quantifier": "all masses, widths, spins up to 2, radii, and points above the threshold", "why_tests_cant": "Identity of functions, one of which contains a derivative.", "anchors": ["src/PDFs/physics/resonances/GS.cu:gouSak", "src/PDFs/physics/resonances/Resonance.cu:hFun,dh_dsFun,fsFun,dFun"]}
{"id": "C84", "title": "LASS is elastic scattering", "statement": "With unit magnitudes the amplitude of LASS, times momentum over mass, is an elastic scattering amplitude: 1 + 2 i T has modulus one.", "quantifier": "all scattering lengths, effective ranges, masses, widths, phases and points", "why_tests_cant": "Unitarity over all parameters and points.", "anchors": ["src/PDFs/physics/resonances/LASS.cu:lass"]}
{"id": "C85", "title": "Flatt\u00e9", "statement": "The amplitude of FLATTE is the coupled-channel formula for two pions and two kaons, with imaginary phase space below each threshold; it is finite and continuous for all masses, also at the thresholds.", "quantifier": "all masses, couplings, pairs and points", "why_tests_cant": "Continuity and absence of poles over a continuum.", "anchors": ["src/PDFs/physics/resonances/FLATTE.cu:flatte"]}
{"id": "C86", "title": "The K-matrix amplitude", "statement": "The amplitude of kMatrix (lineshape and resonance) is the first component of the only solution x of (1 - i K rho) x = P, with the K-matrix, production vector and Adler factor built from the constructor's arguments and rho the phase spaces of the five channels.", "quantifier": "all poles, couplings, slowly varying terms, production coefficients and masses of the pair; for the matrix inversion, any number of channels", "why_tests_cant": "The inverse of a matrix over a continuum of matrices, also near singular ones.", "anchors": ["src/PDFs/physics/kMatrixUtils.cu:luDecomposition,luInverse,getPropagator", "src/PDFs/physics/lineshapes/kMatrix.cu:kMatrixFunction", "src/PDFs/physics/resonances/kMatrix.cu:kMatrixRes"]}
{"id": "C87", "title": "The K-matrix amplitude is continuous in the mass", "statement": "The phase spaces of the channels and the amplitude of kMatrix are continuous functions of the mass of the pair, also at the thresholds.", "quantifier": "all parameters and masses", "why_tests_cant": "Continuity at every point of a continuum.", "anchors": ["src/PDFs/physics/kMatrixUtils.cu:phsp_twoBody,phsp_fourPi"]}
{"id": "C88", "title": "Breit-Wigner lineshapes and their form factors", "statement": "RBW returns the Breit-Wigner amplitude with the mass-dependent width of the given orbital angular momentum, times the square root of the chosen form factor; SBW the same with a constant width; NonRes the square root of the Blatt-Weisskopf weight.", "quantifier": "all masses, widths, radii, orbital angular momenta and form factor options", "why_tests_cant": "The equality ranges over all values of the parameters and all angular momenta.", "anchors": ["src/PDFs/physics/lineshapes/BW.cu:BW,SBW", "src/PDFs/physics/lineshapes/Common.cu:BL,BL2,BL_PRIME", "src/PDFs/physics/lineshapes/NonRes.cu:nonres_DP"]}
{"id": "C89", "title": "SBW is normalised", "statement": "The intensity of SBW without form factor, integrated over all masses of the pair, is pi/(2 sqrt 2), whatever its mass and width.", "quantifier": "all positive masses and widths", "why_tests_cant": "An improper integral, for a continuum of parameters.", "anchors": ["src/PDFs/physics/lineshapes/BW.cu:SBW"]}
{"id": "C90", "title": "GLASS and LASS satisfy elastic unitarity", "statement": "The S wave of GLASS with unit background fraction, times the phase space, and that of LASS, times the mass and the running width, are unitary: |1 + 2iT| = 1 at every mass of the pair; GLASS is the published combination of background and resonance phase.", "quantifier": "all masses, widths, scattering lengths, effective ranges, phases, angular momenta up to 2", "why_tests_cant": "Equality of a modulus with one at every point of a continuum.", "anchors": ["src/PDFs/physics/lineshapes/GLASS.cu:glass_MINT3", "src/PDFs/physics/lineshapes/BW.cu:lass_MINT"]}
{"id": "C91", "title": "The Flatte lineshape", "statement": "Flatte (S wave) returns the coupled-channel amplitude of pi pi and K K with the fixed couplings of the f0(980); it is finite and continuous at every mass of the pair, also at the thresholds.", "quantifier": "all nominal masses of at least two neutral pions and all masses of the pair", "why_tests_cant": "Finiteness and continuity at every point of a continuum.", "anchors": ["src/PDFs/physics/lineshapes/Flatte.cu:Flatte_MINT,aSqrtTerm"]}
{"id": "C92", "title": "The sigma lineshapes of Bugg", "statement": "Bugg and Bugg3 return Bugg's amplitude of the sigma; it is finite and continuous in the mass of the pair, and the two differ by a constant factor only.", "quantifier": "all masses of the pair above two pions", "why_tests_cant": "Finiteness, continuity and equality at every point of a continuum.", "anchors": ["src/PDFs/physics/lineshapes/Bugg.cu:bugg_MINT,bugg_MINT3,bugg_rho2,bugg_j1,bugg_Gamma_4pi"]}
{"id": "C93", "title": "The FOCUS K-matrix", "statement": "FOCUS returns for Kpi and KEta the first column of T = (1 - i K rho)^-1 K of isospin 1/2, with the K pi amplitude elastic below K eta', and for I32 the amplitude 1/(1 - i K rho) of isospin 3/2 with the phase space of K pi.", "quantifier": "all masses of the pair above K pi", "why_tests_cant": "A matrix equation at every point of a continuum.", "anchors": ["src/PDFs/physics/lineshapes/FOCUS.cu:FOCUSFunction,phsp_FOCUS"]}
{"id": "C94", "title": "The amplitude of GSpline", "statement": "GSpline is a Breit-Wigner amplitude whose width follows the natural cubic spline through the values given for two or more knots: the interpolation has the given value at each knot and is continuous, and the width at the nominal mass is the one that was set.", "quantifier": "all numbers and values of knots, all masses, widths and ranges", "why_tests_cant": "Continuity at every point of a continuum, and memory that is never written, which a test run may find zero.", "anchors": ["src/PDFs/physics/lineshapes/GSpline.cu:Spline_TDP,getSpline,make_spline_curvatures,GSpline"]}
{"id": "C95", "title": "Spin factors do not depend on the frame", "statement": "The value of a SpinFactor of an event is unchanged when a rotation or a boost is applied to all momenta of the event, whatever the kind and the order of the particles; under a reflection only the kinds of odd parity change sign.", "quantifier": "all kinds of spin factors, all events, all Lorentz transformations, all orders of the particles", "why_tests_cant": "Invariance under a continuous group at every event.", "anchors": ["src/PDFs/physics/SpinFactors.cu:get_spin_function_ptr targets", "include/goofit/PDFs/physics/detail/SpinHelper.h:SpinSumV,SpinSumT,LorentzMatrix,SymmLorentzMatrix,gpuLVec"]}
{"id": "C96", "title": "Spin factors are the covariant tensor amplitudes", "statement": "Each kind of SpinFactor returns the contraction of the covariant angular momentum tensors and polarisation sums that belongs to its decay chain, and the form factor kinds return the Blatt-Weisskopf weight of the decay of the mother.", "quantifier": "all kinds, all momenta of massive particles", "why_tests_cant": "Equality of two formulas at every point of a continuum.", "anchors": ["src/PDFs/physics/SpinFactors.cu:DtoPP1_PtoVP2_VtoP3P4 ... FF_123_4_L2", "include/goofit/PDFs/physics/detail/SpinHelper.h:SpinSumV,SpinSumT"]}
{"id": "C97", "title": "Exchange of particles in a spin factor", "statement": "Exchanging the two daughters of a spin 1 resonance changes the sign of a SpinFactor; exchanging the daughters of a scalar leaves it unchanged; exchanging the two pairs leaves the kinds with two vector resonances and the form factors of two pairs unchanged.", "quantifier": "all kinds where the daughters come from one resonance, all momenta", "why_tests_cant": "A symmetry at every event.", "anchors": ["src/PDFs/physics/SpinFactors.cu"]}
{"id": "C98", "title": "Angular distributions of the spin factors", "statement": "In the rest frame of a spin 1 resonance the spin factor of its decay to two particles without spin is proportional to the cosine of the angle of the decay, with a factor that depends on masses only; for two vectors in a P wave it is in the rest frame of the mother the triple product of the momenta, so it vanishes when the two decay planes coincide.", "quantifier": "all momenta of massive particles in the stated frame", "why_tests_cant": "Proportionality at every event.", "anchors": ["src/PDFs/physics/SpinFactors.cu:DtoPP1_PtoVP2_VtoP3P4,DtoVS_VtoP1P2_StoP3P4,DtoAP1_AtoSP2_StoP3P4,DtoV1V2_V1toP1P2_V2toP3P4_P"]}
{"id": "C99", "title": "The other resonances of three-body decays", "statement": "Gauss returns the real normal density of its mean and width in the mass of the pair (without the factor 1/sqrt(2 pi)), NonRes returns one, and RhoOmegaMix returns the rho amplitude of GS times one plus the mixing parameter times the omega amplitude of RBW.", "quantifier": "all parameters, pairs and points of the Dalitz plot", "why_tests_cant": "Equality of two formulas at every point of a continuum.", "anchors": ["src/PDFs/physics/resonances/Gauss.cu:gaussian", "src/PDFs/physics/resonances/NonRes.cu:nonres", "src/PDFs/physics/resonances/RhoOmegaMix.cu:rhoomgamix"]}
{"id": "C100", "title": "InterHistPdf interpolates its histogram", "statement": "The value of an InterHistPdf at an event is an average of contents of its histogram near the event, so it lies between two of the contents; dimensions that are parameters take the value of the parameter.", "quantifier": "all histograms, numbers of observables, parameters and events", "why_tests_cant": "Holds for every histogram and event, and reads of numbers of other PDFs depend on what else was created.", "anchors": ["src/PDFs/basic/InterHistPdf.cu:device_InterHistogram,InterHistPdf::InterHistPdf"]}
{"id": "C101", "title": "compute_inverse5 returns the inverse", "statement": "compute_inverse5 of a complex 5 x 5 matrix that has zeros where the template arguments say so returns the inverse of the matrix, if there is one.", "quantifier": "all complex 5 x 5 matrices with determinant not zero", "why_tests_cant": "A matrix equation over a continuum.", "anchors": ["include/goofit/detail/compute_inverse5.h:compute_inverse5"]}
{"id": "C102", "title": "Value of a time-dependent four-body PDF", "statement": "At every event of the data an Amp4Body_TD evaluates, after every sequence of fit calls, to the efficiency times the time resolution applied to the two coherent sums: over the amplitudes given for the decay (times the square root of the rate ratio) and over those given for the other one, each amplitude with its own coefficient.", "quantifier": "all lists of amplitudes, with or without common ones, all coefficients, lineshapes, spin factors, resolutions, events and histories of calls", "why_tests_cant": "Which coefficient goes with which amplitude depends on how the two lists overlap, and the caches on the history.", "anchors": ["src/PDFs/physics/Amp4Body_TD.cu:Amp4Body_TD::Amp4Body_TD,device_Amp4Body_TD", "src/PDFs/physics/Amplitude.cu:Amplitude::operator=="]}
{"id": "C103", "title": "Normalisation of a time-dependent four-body PDF", "statement": "normalize() of an Amp4Body_TD returns the mean, over all its normalisation events, of the integral over all decay times of what it evaluates to at the event, whatever the batches the events come in.", "quantifier": "all amplitudes, parameters, numbers and sizes of batches, and histories of calls", "why_tests_cant": "An integral over a half line, for every partition of the events and every history.", "anchors": ["src/PDFs/physics/Amp4Body_TD.cu:Amp4Body_TD::normalize", "src/PDFs/physics/detail/NormIntegrator_TD.cu:NormIntegrator_TD::operator()", "src/PDFs/physics/detail/NormEvents_4Body_Base.cu:NormEvents_4Body_Base::doNormIntegral_TD"]}
{"id": "C104", "title": "Weighted normalisation events", "statement": "With weighted normalisation events the normalisation of an Amp4Body_TD is the mean of its rate at the events, weighted with the weights.", "quantifier": "all weights and events", "why_tests_cant": "Holds for every set of weights; the usual test has weights 1.", "anchors": ["src/PDFs/physics/detail/NormEvents_4Body_Weighted.cu:NormEvents_4Body_Weighted", "src/PDFs/physics/detail/NormEvents_4Body_WeightedDevice.cu:NormEvents_4Body_WeightedDevice"]}
{"id": "C105", "title": "Normalisation events on host or device", "statement": "Whether the cached values of normalisation events are kept on the host or on the device does not change any result of an Amp4Body_TD.", "quantifier": "all arithmetics, batches and sequences of calls", "why_tests_cant": "All histories of calls, including those in which nothing is recalculated.", "anchors": ["src/PDFs/physics/detail/NormEvents_4Body_HostCached.cu:NormEvents_4Body_HostCached::computeNorm_TD", "src/PDFs/physics/detail/NormEvents_4Body_DeviceCached.cu:NormEvents_4Body_DeviceCached::computeNorm_TD"]}
{"id": "C106", "title": "Generated time-dependent events follow the PDF", "statement": "GenerateSig of an Amp4Body_TD keeps an event with the probability that its value has relative to an envelope which is nowhere below the value, so that the events kept are distributed like the PDF.", "quantifier": "all amplitudes, mixing parameters, decay times and random numbers", "why_tests_cant": "The envelope has to hold at every decay time, not only at those that a test happens to draw.", "anchors": ["src/PDFs/physics/Amp4Body_TD.cu:Amp4Body_TD::GenerateSig,exp_functor,genExp"]}
{"id": "C107", "title": "The five variables of a four-body event", "statement": "The five variables computed from the momenta of four particles are the masses of the two pairs, the cosines of the two helicity angles and the angle between the decay planes. They can be turned into momenta and back without change, and momenta turned into variables and back give the same event up to a rotation, not its mirror image.", "quantifier": "all masses, all events of a mother at rest whose pairs are not collinear, all points inside the phase space", "why_tests_cant": "A statement about every event and every point of the phase space; a sign error shows only in asymmetries.", "anchors": ["include/goofit/PDFs/physics/detail/Dim5.h:Dim5::operator(),Dim5::cosHELANG,Dim5::phi", "src/PDFs/physics/DalitzPlotHelpers.cu:get4Vecs"]}
{"id": "C108", "title": "Plots of a Dalitz-plot PDF", "statement": "A DalitzPlotter holds, once each, the cells of the grid whose middle is inside the kinematic limits, with the normalised value of the PDF there; make2D puts it in the bin of that cell, so that contents times cell area add up to 1; getXval, getYval and getZval are the three squared pair masses.", "quantifier": "all amplitudes, grids, kinematic limits and histories of the PDF", "why_tests_cant": "All grids and all earlier uses of the PDF, whose caches the plotter shares.", "anchors": ["include/goofit/PDFs/physics/DalitzPlotter.h:DalitzPlotter::DalitzPlotter,make2D,getVal,getX,getY,getXval,getYval,getZval"]}
{"id": "C109", "title": "Making a plot does not disturb a fit", "statement": "After a DalitzPlotter has been made for a PDF with data, the PDF has its data again and evaluates to what it did before.", "quantifier": "all fits, histories of calls, data sets and grids", "why_tests_cant": "The effect is on later calls; it depends on what the PDF keeps between them.", "anchors": ["include/goofit/PDFs/physics/DalitzPlotter.h:DalitzPlotter::DalitzPlotter", "src/PDFs/physics/Amp3Body.cu:Amp3Body::setDataSize,Amp3Body::normalize"]}
{"id": "C110", "title": "Generated three-body events carry the weight of the PDF", "statement": "GenerateSig of an Amp3Body returns, for every event, the momenta, the squared masses of the pairs (1 2), (2 3) and (1 3) of these momenta, a weight which is the phase-space weight times the normalised value of the PDF at these masses, and a flag set exactly when the event's random number times the largest weight is below its weight; events of the largest weight are always kept and events of weight zero never.", "quantifier": "all numbers of events, momenta, phase-space weights, random numbers, amplitudes and histories of the PDF", "why_tests_cant": "The layout of the event array and the maximum are over any number of generated events, and the caches are shared with earlier calls.", "anchors": ["src/PDFs/physics/Amp3Body.cu:Amp3Body::GenerateSig", "src/PDFs/physics/Amp3BodyBase.cu:Amp3BodyBase::fillMCFlags", "include/goofit/PDFs/physics/detail/Dim2.h:Dim2"]}
{"id": "C111", "title": "Generating three-body events does not disturb a fit", "statement": "After GenerateSig an Amp3Body has the same normalisation as before, still has the data that were attached to it and evaluates to the same values there.", "quantifier": "all fits, histories of calls, data sets and numbers of generated events", "why_tests_cant": "The effect is on later calls; it depends on what the PDF keeps between them.", "anchors": ["src/PDFs/physics/Amp3Body.cu:Amp3Body::GenerateSig,Amp3Body::setDataSize,Amp3Body::normalize", "src/PDFs/PdfBase.cu:PdfBase::setData"]}
{"id": "C112", "title": "Python gets the generated four-momenta", "statement": "The array of particles returned by GenerateSig in Python holds the energy and the three components of the momentum of every particle of every event.", "quantifier": "all numbers of events and momenta", "why_tests_cant": "Information lost in the copy is visible only by comparing all pairs of events.", "anchors": ["python/PDFs/physics/Amp3Body.cpp:GenerateSig", "python/PDFs/physics/Amp4Body.cu:GenerateSig", "python/PDFs/physics/Amp4Body_TD.cu:GenerateSig"]}
{"id": "C113", "title": "The Voigtian's Faddeeva function is the trapezoidal rule with the term of the pole", "statement": "The complex function behind VoigtianPdf is the Faddeeva function w(z) = exp(-z^2) erfc(-iz): above the real axis it is the trapezoidal rule with Gaussian weights for i/PI int exp(-t^2)/(z-t) dt plus the term of the pole, with nodes that are never close to z, and near zero a ratio of polynomials.", "quantifier": "all points of the upper half plane and all points near zero", "why_tests_cant": "A wrong table entry, a wrong step near a pole or a wrong branch shows up at isolated points of a continuum.", "anchors": ["src/PDFs/basic/VoigtianPdf.cu:device_Faddeeva_2", "src/goofit/Faddeeva.cpp:Faddeeva_2"]}
{"id": "C114", "title": "A Voigtian is symmetric about its mean and positive", "statement": "A VoigtianPdf has the same value at equal distances to the left and right of its mean, and its value is positive.", "quantifier": "all observables, means and widths", "why_tests_cant": "The function is piecewise with tables chosen by the point; symmetry has to hold across all pieces.", "anchors": ["src/PDFs/basic/VoigtianPdf.cu:device_Faddeeva_2,device_Voigtian", "src/goofit/Faddeeva.cpp:Faddeeva_2"]}
{"id": "C115", "title": "The host Voigtian agrees with the device", "statement": "cpuvoigtian returns the Voigt profile the device computes: for positive widths the real part of the Faddeeva function, for a zero resolution the Breit-Wigner, for a zero width the Gaussian, and 1 if both are zero.", "quantifier": "all arguments", "why_tests_cant": "The special cases are decided by order of tests on real numbers.", "anchors": ["src/goofit/Faddeeva.cpp:cpuvoigtian", "src/PDFs/basic/VoigtianPdf.cu:device_Voigtian", "include/goofit/Faddeeva.h:cpuvoigtian"]}
{"id": "C116", "title": "An event gives the same spin factors and lineshapes from its momenta and from its five variables", "statement": "A four-body fit stores events as two pair masses, two helicity cosines and one angle. The spin factors and lineshapes it computes from them, for the data and for the normalisation, are those of the momenta the event was measured with: spin factors for every kind and every assignment of particles, lineshapes at the mass of their own pair and of its daughters.", "quantifier": "all decays at rest to four particles whose pairs (1 2) and (3 4) each span a plane, all spin factors and particle assignments, all pairs, all places of the observables in the event array", "why_tests_cant": "The conversions lose the orientation of the event; whether every spin factor is blind to what is lost, but not to a mirror image, is a statement about all events and all factors.", "anchors": ["src/PDFs/physics/detail/SFCalculator.cu:SFCalculator::operator()", "src/PDFs/physics/detail/LSCalculator.cu:LSCalculator::operator()", "src/PDFs/physics/detail/NormSpinCalculator.cu:NormSpinCalculator::operator()", "src/PDFs/physics/detail/NormLSCalculator.cu:NormLSCalculator::operator()", "include/goofit/PDFs/physics/detail/Dim5.h:Dim5::operator()"]}
{"id": "C117", "title": "A convolution follows its parameters and its integration constants", "statement": "Whatever was done before with a ConvolutionPdf (setIntegrationConstants, setData, fits), its value is the convolution sum of the present model and resolution with the present integration constants; kept tables are never stale.", "quantifier": "all histories of setting constants, attaching data and normalising, all models and resolutions, any arithmetic", "why_tests_cant": "Stale tables only show after particular sequences of calls; a test tries a few sequences.", "anchors": ["src/PDFs/combine/ConvolutionPdf.cu:ConvolutionPdf::setIntegrationConstants,ConvolutionPdf::normalize,device_ConvolvePdfs", "src/PDFs/PdfBase.cu:PdfBase::populateArrays"]}
{"id": "C118", "title": "Convolutions that share a cache have the same values as without it", "statement": "A ConvolutionPdf made with the constructor for a shared cache (several convolutions, or numOthers = 0 for one) is used like one made without: registerOthers accepts the list of the convolutions, and values and fits are the same.", "quantifier": "all numbers of convolutions, all lists given to registerOthers, all models, resolutions and block sizes", "why_tests_cant": "What the kernel reads depends on how many convolutions the program made before and on what other PDFs registered.", "anchors": ["src/PDFs/combine/ConvolutionPdf.cu:ConvolutionPdf::ConvolutionPdf,ConvolutionPdf::registerOthers,device_ConvolveSharedPdfs", "src/PDFs/MetricTaker.cu:MetricTaker::operator()"]}
{"id": "C119", "title": "getValue and evaluateAtPoints return the value of the PDF", "statement": "getValue(Eval), getValue(Prob) and getValue(NLL) return the density of the PDF at the current values of its observables, that density normalised to 1 over the range, and minus the logarithm of the latter; evaluateAtPoints returns the normalised density at the centres of the bins of the observable. This holds for every PDF and after every history, whether data are attached or not.", "quantifier": "all trees of PDFs, all values of the parameters and observables, all histories of calls, all orders of summation", "why_tests_cant": "The numbers depend on the tree, on the positions of the observables in the event, which other calls assign, and on factors left by earlier normalisations.", "anchors": ["src/PDFs/GooPdf.cu:GooPdf::getValue,GooPdf::evaluateAtPoints,GooPdf::normalize", "src/PDFs/MetricTaker.cu:MetricTaker::operator()", "src/goofit/PdfBase.cpp:PdfBase::setupObservables"]}
