s('C105 C106 C107','Depth-first search, canonical forms and the dictionary of moves, with Python set orders as arbitrary permutations. Search soundness and completeness by induction on the fuel; canonical forms characterise cycles up to rotation and reversal; margins by balance of each node; connectivity by following arcs to a cycle (pigeonhole) and a decreasing distance.')
s('C108 C109 C110 C111 C112','Collections as lists of arrays per sample, an array being its name, dimensions, labels and an identity. Grouping by induction on the list with one representative per group; schedules and directory listings as arbitrary permutations; re-reading through uniqueness of sorted lists and independence of samples.')
s('C113 C114 C115 C116','Sets of names as sorted lists, arrays as functions of labellings, files as lists of datasets with their rows, evaluations of expressions as an arbitrary function of those made so far. Slices by induction on the list of conditions; rows by an invariant of the loop: one row per configuration, each holding the metrics met so far.')
s('C117 C118','Validation as a fold over the template with the shared key path as a list. The walk is shown equal to a pass over positions whose paths are pairwise unrelated, so each is visited in the original settings; the lists of sweeps by an invariant over the positions visited so far.')
s('C119 C120 C121 C122 C123 C124','Direct models over the reals, missing values as None. Subsets by induction on the elements; chi-squared zeros through sums of squares; the triangle inequality by Cauchy-Schwarz; Welch bounds by algebra; masks as filters of index lists.')
s('C125 C126 C127 C128','Transition probabilities from the mass functions of the generators. Reversibility of one minor through the ratio of the hypergeometric weights, of one Metropolis move through min(1,r); invariance by summing over a list of all tables. Direct sampling by the multinomial theorem over all compositions; the shuffle by counting orderings, one item at a time.')
s('C129','Finite Markov chains over a list of tables: positive self-loops and connectedness give a power with positive entries, hence an L1 contraction on signed vectors of sum zero. Walks of the basis are matched with steps of positive probability through the cells of one minor.')
s('C130 C131 C132 C133 C134 C135 C136','The data object as a dictionary of arrays; every stage touches only its own attributes (frame lemmas), so the final state of each dataset is what its own step put there. Success of a consistent read by an invariant on the dims.')
s('C137 C138 C139 C140','Names as character lists; the date is a suffix of fixed length, so it can be read back. A pattern denotes a set of texts, and the matcher is proved equal to it; directory names are then split along the pattern. Sorting by a stable insertion sort.')
s('C141','Telescoping: the probability of stopping at n times the n-th partial sum, summed by parts. The extra term is bounded below by a diverging harmonic sum.')
s('C142 C145 C146','Direct case analysis of load, estimate and validation over an association-list file store; file names are injective through the decimal notation; the negative sign by computing both log-sum-exps.')
s('C143','The shape of the configuration (all but its scalars) is invariant under write-back, so every name keeps its place; places of different names are unrelated paths; a fold invariant collects the effects of the nine turns.')
s('C144','Named parameters as finite maps; equality of maps for every sample decided at the sample (1,1); the intensity separated on a 1x2 table.')
s('C147','File names are cut at their separators; the admissibility test reduces to the fixed cells for generated moves (C11), and the generator is characterised by its pairs.')
s('C148 C149','The loops as folds over the product grid with a best-so-far invariant; refutations on 1x2 data.')
s('C150','The softmax weights of the mailbox are positive and sum to one; an average lies between its bounds.')
s('C151 C152','Induction on the layers: a layer reads a region and the sources of its incoming edges; sums over the mailbox are invariant under permutation and injective renaming.')
s('C153 C154','Rows as association lists; fold invariants for the assignments; the pool as any interleaving of whole results (permutation).')
s('C155','Insertion into a sorted list; file names cut at their separators.')
s('C156','Induction on the scanning of re.findall: a mention can only start where the scan stops, as names contain neither dots nor boundaries; then a fold invariant over the objects built.')
s('C157','The effect of a block of messages on the buffer, composed over a run and then over the runs by induction; conservation of lines as a permutation invariant over all histories.')
s('C158','Case analysis over the kinds of messages.')
s('C159','Stable insertion sort: induction over the sorts of lexsort with the invariant that the list is sorted by the criteria so far; ranks from positions.')
s('C160 C161','Association lists with fold invariants: the value of a key after updates is the latest said.')
s('C162','Case analysis; uniqueness within the shipped table by computation.')
s('C163','Labels as a sorted duplicate-free list; exact rational places; injectivity of the mixed-radix place for two levels.')
s('C164','Induction over the points of a subplot with minimum/maximum as invariants over exact rationals.')
s('C165','The places of C163 with unit steps as ranks; coverage of the grid as a boolean test reflected.')
s('C166','Small expression language with Python scoping; invariant of the loops as an iff characterisation, by induction over the definitions; congruence of evaluation on the names mentioned.')
s('C167','Frame lemma for names not defined by a loop; concrete sessions for the refutations.')
s('C168','Case analysis over the sources against an inductive specification; commutation of skipped names.')
s('C169','Membership in the flattened list; the table of experiments by case analysis.')
s('C170','Exact characterisation of the settings by an iff, from lemmas on association lists; composed with the theorems on deep updates (C87).')
s('C171','Invariant of the index dictionary (order of keys, last index) by induction; set-up threaded with the aliased entries, distinct indices.')
s('C172','Selection depends only on the types that occur, by induction.')
s('C173','Induction over the list of experiments.')
s('C174','Invariant of the interleaving semantics by induction over schedules (one worker); for two workers a schedule is constructed for every number of iterations and every metric.')
s('C175','Induction over the trials; the tables of names by computed decision; composed with C97.')
s('C176','Case analysis over the experiment types, best trial by C175.')
s('C177','Two-step induction over the runs.')
s('C178','Cancellation on both sides of the joined name (strings by length and prefix); the refutation follows both commands through the file system.')
s('C179','Case analysis over formats; keys of the merged figure by induction over folders and points (Plotting).')
s('C180','Composition of the export with the reader.')
s('C181','Inversion of the whole generation; invariant of the drawing loop; maximum attained; sums of reals.')
s('C182','Unfolding for equal seeds; for the refutation, induction over the drawing loop showing that without spread its data do not depend on the generator.')
s('C183','Induction over the written files; injectivity of decimal texts and of the joined name; concrete generations for the clashes.')
s('C184','The recomputed parameters equal the stored ones by cases over delta and kappa; congruence of the generation in its parameters.')
s('C185','exp and logsumexp identities applied to the inverted generation.')
s('C186','Invariant of the reading loop (labels of the last sample read), block arithmetic of row-major arrays, composed with the recording theorem of the joint sampler.')
s('C187','Closed form of the recording schedule by induction on the run length; block arithmetic; composed with C186.')
s('C188','|rint x - x| <= 1/2 and linear arithmetic; cases over the type of the coordinate.')
s('C189','Induction over the steps of one run against the Euler scheme written out; inversion of the generation.')
s('C190','Cholesky factorisation by recursion on Schur complements: completing the square shows success iff positive definite; mathcomp determinant over the reals for the value; second derivatives of the potential from those of the destination shares; at a stationary point the quadratic form is a positive combination of squares.')
s('C191','Frechet derivatives and a chain rule on n-dimensional space; a leapfrog step is kick-drift-kick, whose Jacobians are triangular; determinants multiply (mathcomp); differentiability of the gradients from rules for sums, exp and ln; one step of the attraction sampler is a kick that also scales the momentum.')
s('C192','Case analysis on the dictionary of margins; the checks are shown equivalent to agreement with the grand total, the filling steps by a closed form of the resulting dictionary; residual margins from C04.')
s('C193','Induction over functions and combinations against an inductive relation of composition; the restacked array is looked up by a lemma on pairs of label lists of fixed length.')
s('C194','Position-wise characterisation of the slice by division with remainder; the cumulative mean by instantiating C193.')
s('C195','Inversion of the loop over groups.')
s('C196','A Chebyshev (covariance) inequality for sums over pairs of cells, for weights multiplied by exponentials; shares of raised and unraised cells bounded directly; derivatives by rules for sums, exp, ln and log-sum-exp.')
s('C197','Totals of the shares give the totals, logarithms of the shares give the utilities up to the normalisation; conversely log-sum-exp shifts by constants.')
s('C198','Tangents of the exponential bound the potential below by a multiple of the 1-norm; a minimising sequence converges along coordinates (Bolzano-Weierstrass, classical choice) and the potential is sequentially continuous; minima have vanishing derivatives, which C33 gives; uniqueness by comparing the normalisations of two balances.')
s('C199','Degree-higher steps read the intensity only through cross ratios (C125 kernel), by induction over the steps; the log ratio of a degree-one step changes by the inner product of the move with the effects, which vanishes by C11; log-sum-exp shifts for direct sampling.')
s('C200','Chains: an irreducible finite chain with one holding state has a power with positive entries and contracts; moves connect by C12, repeating a move ends at a negative table, which is refused, so some table holds; stationarity is C126.')
s('C201','Row-major positions and their inverse (division and remainder) by induction over the stacked sizes; labels of the product by the same induction; arrays are addressed by dimension names, so transposition is the identity on them.')
s('C202','The join is a flat_map over the rows; with distinct ids the matching regions are none or one; induction over the session with the remembered regions as the invariant.')
s('C203','Induction over the layers carrying the width of the current sample; the output is the image of the last activation; exchanging the two sums composes the two affine maps of the default network.')
s('C204','Round trip: induction over the items a command line is written from, with eating stopped by the dash of the next item.')
s('C205','C203 gives nonnegative predictions; log flows of one origin differ by utilities, in both models, and the exponential is increasing.')
s('C206','Round trip: splitting and stripping the text a list was written as gives the texts of its items, each of which reads back; a word that is no number makes the first failing occurrence stop the parse.')
s('C207','The corrections change the total by one each; the least quotient is finite while trips are in excess, so only positive cells are lowered; scaling the probabilities turns the weight into a product of Poisson weights, each maximal at the floor of its mean.')
