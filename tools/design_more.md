| Cycles | `MarkovBasis.py` 324-497: bipartite graph of free cells, depth-first search for cycles up to a length, canonical forms, moves read off node names. Set iteration order is an arbitrary permutation. The only call (line 661) is commented out in the code. |
| Collections | `outputs.py` 233-330, 689-770, 1038-1265, 1322-1400, 1795-2170, 2361-2378: grouping and combining the arrays of a sweep, collecting runs with and without workers, saving and re-reading collections, element access, stripping. The content of arrays and xr.combine_by_coords are abstract. |
| Summaries | `config.py` 570-618, `outputs.py` 330-436, 552-687, 1586-1603, 2752-2883: splitting swept parameters into group identifiers and shared ones, slicing arrays by coordinate values, loading a run's file, building the rows of a summary. Expression evaluation is an arbitrary function; h5py and xarray are modelled by their documented effect. |
| Validate | `config.py` 620-945: validation of a configuration against the template and the schema, replacement of sweeps by defaults, the lists of isolated and coupled sweeps. The check of one entry (instantiate_data_type) is an arbitrary function, modelled in Schema. ShippedTemplate holds cfg_parameters.json as a term. |
| Metrics | `math_utils.py` 20-28, 78-112, 164-206, 387-436, 475-541, 544-657: power set, table distances, cell errors, one-tailed tests, sigmoids, sparsity, null rows and columns, symmetry. Reals for floats, None for nan. |
| Kernels | `ContingencyTable_MCMC.py` 396-776 as probabilities: the draws of TableMCMC with the mass functions of the generators (uniform, Poisson, multinomial, Fisher's non-central hypergeometric, uniform permutations). Exact integers and reals. |
| Chains, KernelsLimit | Distribution of the degree-higher chain of Kernels after n steps, as iterated transition probabilities over a list of all admissible tables. |
| Inputs | `inputs.py` 30-490: reading, dimension checks, masks, margins, copies, xarray and device casts; schemas of `global_variables.py` 119-330, 465. Arrays are shapes with exact rational entries; float32 rounding, int32 overflow, cuda devices and non-array files are not modelled. |
| OutputSearch | `outputs.py` 880-930, 2197-2298, `misc_utils.py` 492-512, 1058-1070: directory names, the folder search with the regular expressions it builds (characters, `.`, `*`; other metacharacters are excluded by hypothesis), the date ordering. The file system is a tree of names; symbolic links are not modelled. |
| Debias | Average of `compute_truncated_infinite_series` (`probability_utils.py` 256-300) over the stopping times of `generate_stopping_times`; real numbers for floats. |
| GridSearch | `experiments.py` 925-1122, 1169-1306: the two grid searches, with the prediction of each grid point an arbitrary function (None for a failed solver). |
| StartUp | `HarrisWilsonModel_MCMC.py` 71-182, 543-602, `HarrisWilsonModel.py` 53-147, `experiments.py` 463-520, 812-850, 1403-1417, 1636-1660, 1741-1745, `outputs.py` 1578-1580, `MarkovBasis.py` 526-609: stopping times, constants, estimator choice, initial values, validation, beta scaling, stored basis. Text and compression formats of the files are taken to read back what was written. |
| GraphAttention | `GraphAttentionNetwork.py` 10-250: the attention layers, the stack and the bilinear prediction. Graphs are lists of edges with real weights; dropout (evaluation mode), batch handling and training are not modelled. |
| Summarise | `outputs.py` OutputSummary (collection of rows, sorting, file names), `misc_utils.py` find_dataset_directory. Statistics themselves are arbitrary values (their computation is in Summaries and Metrics). |
| Expressions | `outputs.py` 1678-1790, 2680-2694: which objects are built before an expression is evaluated; the regular expression is modelled on ASCII text; construction of the table and sampler may succeed or fail arbitrarily. |
| RunLog | `utils/logger_class.py`, `outputs.py` 939-957, 1012-1036, `experiments.py` 87-127, 452-457, 3746-3800: levels, the buffered file handler, one logger per command, the order of opening and closing. Formatting, colours and the processes of a concurrent sweep are not modelled. |
| Plotting | `plot.py` data_plot, extract_plot_variable, merge_plot_settings; `misc_utils.py` latex_it, tidy_label; the table of expressions: which points a figure has, with which values, drawing order and labels. Values are abstract except for the order (rationals) and labels (text); evaluation of expressions and drawing are not modelled. |
| PlotAxes | `plot.py` get_axes_limits, get_discrete_ticks, map_groups_to_axes and the subplot grid of plot_simple, over exact rationals; the order of labels is an arbitrary total order. Drawing by matplotlib is not modelled. |
| Evaluate | `outputs.py` evaluate_expressions 2620-2785 (namespaces, order, failures), get_sample 1450-1583, Outputs.__init__ 183-218 (arrays to read); schemas of `global_variables.py`. Expressions are a small language over abstract values; reading files and array arithmetic are parameters. |
| Handler | `main.py` create/run/optimise: locals, null and empty settings, capitalisation, update_settings, dims; `experiments.py` 35-126: selection, set-up (with the entries shared with the handler's configuration), sequential run. Validation, construction and run are parameters; logging and the output directory are not modelled. |
| Trials | `experiments.py` optimise_experiments_sequentially 128-190, update_optimisation_progress 786-810 and what one trial does to the shared experiment object (interleaving semantics of the worker threads); names suggested and defaulted by the five models; self.total_time. optuna is described by its documented behaviour; training and metrics are parameters. |
| FigureFiles | `plot.py` create_plot_filename 1512-1562, read_plot_data 1564-1640, data_plot (exports, redrawing), features of plot_simple 575-606; `misc_utils.py` write_figure_data, write_figure, unpack_data. Drawing is not modelled; JSON is the identity on texts, numbers, lists and null. |
| Synthetic | `inputs.py` generate_synthetic_data 614-781, sde_solver_in_sequence, sde_potential_in_sequence 782-852; `probability_utils.py` random_vector; `misc_utils.py` set_seed; write-back of parameters by the intensity model and HarrisWilson. numpy's and torch's generators and the optimiser are parameters; rounding, to_learn and a single destination are not modelled. |
| LoadOutputs | `outputs.py` load_h5_data 552-609, read_h5_file 611-689, coordinates of load_single 821-877, attributes of the file 1000-1010; `misc_utils.py` parse 338-354, stringify_coordinate 672-678, string_to_numeric 1053-1056; `global_variables.py` COORDINATES_DTYPES, OUTPUT_SCHEMA. Entries are opaque; reading a text as a number is a parameter; rounding to five decimals is exact half-even rounding of rationals. |
| SyntheticPaths | Theorem about `Synthetic` (the runs of the solver); models no further code. |
| DetR | No code: mathcomp's determinant over Coq's real numbers (canonical structures by classical choice) and det(L L^T). |
| Laplace | `HarrisWilsonModel_MCMC.py` biased_z_inverse 457-541; `HarrisWilsonModel.py` sde_potential_hessian 211-224; sde_pot_hessian of TotallyConstrained 66-73 and ProductionConstrained 69-76. torch.linalg.cholesky is the exact textbook factorisation; the optimiser and autograd are not modelled (their results are arguments / proved closed forms). |
| Volume | models no further code: the trajectories `leaps` and `x_trajectory` of HMC as maps of phase space, `HarrisWilsonModel_MCMC.py` 396-407, 898-930. |
| TableData | `contingency_table/__init__.py` import_tabular_data 346-440, the calls of build 99-128, update_table_properties_from_table 727-731. Two-way tables with at least two rows and columns; draws are arguments. |
| FunctionSweep | `misc_utils.py` xr_restack 1278-1291, xr_islice 1294-1313, xr_apply_by_group 1315-1377, xr_apply_and_combine_wrapper 1379-1499; `math_utils.py` roundint, sample_mean 449-456. Arrays are lists of entries of the multi-index with abstract content; swept values are scalars. |
| Sensitivity | flow_matrix_expanded and flow_matrix_jacobian of `TotallyConstrained/__init__.py` 175-192 and `ProductionConstrained/__init__.py` 179-197; intensity_gradient, `spatial_interaction_models/__init__.py` 264-286. Automatic differentiation is represented by closed forms. |
| Confinement | models no further code: the potentials of SIM, `TotallyConstrained/__init__.py` 32-56, `ProductionConstrained/__init__.py` 33-58, `HarrisWilsonModel.py` 311-328, and run_single. |
| OddsOnly | models no further code: kernels of Kernels and TableMCMC under the intensities of SIM. |
| MetropolisLimit | models no further code: the chain of the degree-one kernel of Kernels. |
| Stacking | outputs.py 1635-1675 (stacking of swept dimensions after loading); DataArray.stack and transpose as xarray defines them, labels as tuples. |
| Geometry | plot.py 1458-1499 (joining data to region geometries, with the memory between calls). |
| NetForward | HarrisWilsonModel_NeuralNet.py 205-232, 290-300 (forward pass over the reals; layers and activations from Learning), global_variables.py 737-766 (five activations). |
| EatAll | utils/click_parsers.py 200-267, main.py 120-121 and 559-561; click 8.1's parser loop for whole option tokens. |
| Preferences | experiments.py 2115-2137, 2363-2385, 2630-2652 (predicted parameters feeding the flows); otherwise NetForward, SIM and Sensitivity. |
| AxesOption | utils/click_parsers.py 186-198, main.py 129-132; Python expressions other than lists of integers are not modelled. |
| MultinomialMode | utils/probability_utils.py 209-239, in real arithmetic; torch.argmin takes NaN as least and the first among equals. |
