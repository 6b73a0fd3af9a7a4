# Formal model of GeNSIT in Rocq (Coq 8.16.1)

## Layout

* `rocq/theories/Base.v`, `RealBase.v`, `PyMonad.v` – finite sums, list helpers, Python exceptions as
  values (`res`), sequencing. They model no code.
* model files (definitions mirror functions of /repo, each comment cites the file and lines it models)
  and `*Props.v` files (theorems named after the property, `Cnn_…`, each followed by `Print Assumptions`;
  `Cnn_nonvacuous` shows a concrete case meeting the hypotheses). A few small models keep their theorems
  in the same file.
* `properties.jsonl` the properties in English, `MANIFEST.json` which theorem covers which property,
  `seeded/LOG.jsonl` the log of wrong programs tried against the theorems, `tools/` the generators of the
  manifest.

## Conventions

* Random draws (uniforms, shuffles, normal vectors, permutations) are universally quantified inputs of
  the functions, so a theorem holds for every outcome of the generator.
* A function that can raise returns `res`; the exception class is kept (`EKey`, `EIndex`, `EType`, …).
* Unbounded loops carry the list of draws they consume, or fuel; running out is a separate value which
  the theorem excludes or handles (and, where the property claims termination, bounds).
* Numbers: integers are `Z`/`nat` (no overflow of int32/int64), floating-point values are real numbers
  (`R`), so rounding, overflow and NaN are outside the model except where a NaN is modelled explicitly
  (`None`).
* When the code violates a property, the file holds a `_refuted` theorem (a witness computed on the
  faithful model) and the strongest true statement (`_partial`), and MANIFEST says `partial`.

## Per property

Columns: the code modelled, the theory files holding the theorems, how they are proved, the status.

| id | property | code | theories | proof | status |
|----|----------|------|----------|-------|--------|
@@ROWS@@

## What is modelled

| theory | code |
|--------|------|
| Axes | closure of constraint axes: `contingency_table/__init__.py` (unify/infer constrained axes), powerset helpers |
| Tables, InitTables, StartMargins | `contingency_table/__init__.py`: margins, residuals, fixed cells, admissibility, start-table solvers; `ContingencyTable_MCMC.py` margin sampling |
| MarkovBasis, MarkovWalks | `contingency_table/MarkovBasis.py` |
| TableMCMC | `contingency_table/ContingencyTable_MCMC.py`: proposals, acceptance, direct samplers, Gibbs step |
| ProbUtils, Scores | `utils/probability_utils.py`, `utils/math_utils.py` |
| SIM | `intensity_models/spatial_interaction_models`, `physics_models/HarrisWilsonModel.py` |
| HMC | `learning_models/HarrisWilsonModel_MCMC.py` |
| ConfigTree, ConfigFind, ConfigModify, Sweep, SweepId, SweepFind | `config.py` and the nested-path helpers of `utils/misc_utils.py` |
| Schema | `utils/config_data_structures.py`, value checks of `config.py` |
| Executor | `utils/multiprocessor.py` |
| Slicing, Recorder | `outputs.py`: slicing, sample writer, batches |
| TextCodec, DictUtils | `utils/misc_utils.py` |
| CommandLine | `utils/click_parsers.py` and option handling of `main.py` |
| Learning, LearningLoss | `learning_models/*.py`, comparison experiments of `experiments.py`, masks |
@@MORE@@

## What is not modelled

* Floating-point rounding, integer overflow, device placement, memory layout.
* The numerical libraries themselves: torch autograd and optimisers, xgboost and scikit-learn fitting,
  dgl message passing, scipy root finding and `minimize` (their results are universally quantified inputs
  where they appear).
* The quality of random number generators: draws are arbitrary values in their range.
* File formats: HDF5, netCDF, pickle; only which names are written, in which order and what is read back.
* Plotting (`plot.py`, `static/plot_variables.py`, `utils/notebook_functions.py`), logging (`utils/logger_class.py`), the command line wiring of
  click beyond the option parsers listed, and GPU/MPI process start-up.
* ODE/SDE integration of the physics models beyond a single step.

## Trusted base

Coq's kernel (8.16.1); the hand reading of /repo that the model records (the code cannot be run here);
the standard-library axioms below, which `Print Assumptions` lists for the theorems named. No other axiom,
no plugin, no kernel check switched off.

@@AX@@
