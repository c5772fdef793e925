# Formal model of frm: design

Subject: the Python package in `/repo/frm` at the pinned commit, read as text. Nothing is executed.
Prover: Rocq/Coq 8.16.1, sources in `rocq/theories`, logical prefix `Verif`.

## Layout

Each area has up to four kinds of files.

* `XModel.v`: executable (or, for real-valued formulas, definitional) transcription of the Python functions, branch by
  branch, each definition citing file and lines. Exceptions are values of `result` (`Ok v | Err kind`).
* `XSpec.v` (or a spec section at the top of the property file): the small independent vocabulary in which properties are stated.
* `XProofs.v`: lemmas.
* `PX.v`: only property theorems, closed by `exact`, with `Print Assumptions` and concrete non-vacuity `Example`s.

## Trusted base

* Coq's kernel (and `vm_compute`, used for closed computations only).
* Axioms: integer/list/string areas are meant to be closed under the global context. Areas over the real numbers use the
  standard library axioms of `Reals` (`ClassicalDedekindReals.sig_forall_dec`, `ClassicalDedekindReals.sig_not_dec`,
  `FunctionalExtensionality.functional_extensionality_dep`) and, through Coquelicot, possibly `Classical_Prop.classic`
  and the standard library's choice axioms; the exact list is printed in the `P` files and summarised in "Axioms" below.
* Reading of the code: definitions were transcribed by hand; third-party library behaviour is modelled from its documented semantics:
  - pandas `Timestamp`/`DatetimeIndex`: proleptic Gregorian days (Z), time of day ignored, no year range limit;
    `DateOffset(months/years)` adds months and clips to the month end; `MonthEnd(0)` rolls to month end.
  - numpy `busday_offset`: roll, then count business days; unknown roll strings are an error.
  - Python `float`/numpy arithmetic: exact real (or rational) arithmetic; NaN as `None` where it matters; no rounding, no overflow. The exception is C128-C130, where values are rounded to binary64 with Flocq.
  - scipy root finding/quadrature/optimisation: arbitrary functions (universally quantified), only their contract used where stated.
  - regular expressions: leftmost, first alternative.
* Not modelled: plotting, pickled holiday data contents, printing/logging, DataFrame index/dtype bookkeeping, performance.

## Plan per property

| id | modelled | method |
|----|----------|--------|
| C01-C07 | `daycount.py` whole; Gregorian calendar as Z days with y/m/d decomposition | case analysis + lia over a verified civil calendar; rational arithmetic (Q) for year fractions |
| C08-C10 | `numpy.busday_offset` as used by `workday`, schedules | search with fuel; fuel sufficiency by pigeonhole over holidays; order lemmas |
| C11 | `get_busdaycal`, `convert_weekend_to_weekmask` | list induction |
| C12-C14 | `clean_tenor`, `tenor_to_date_offset` over ASCII strings | string induction, grammar spec |
| C15-C17 | `resolve_fx_curve_dates` and helpers | on top of busday model |
| C18-C22 | `generate_date_schedule` | fuel loop, termination measure, induction |
| C23 | `add_period_daycount/yearfrac` | telescoping |
| C24 | `add_payment_dates` | busday lemmas |
| C25 | `NotionalSchedule` | list induction |
| C26 | `make_schedule` | exhaustive branch analysis |
| C27-C34 | `leg.py`, `swap.py` over R with optional (NaN) cells | list induction, ring/lra |
| C35-C36 | `CompoundingFreq` methods | real analysis (exp/ln/Rpower) |
| C37-C39, C75 | `ZeroCurve` pillars, interpolation, forwards, lookup, instantaneous forwards | list induction, lra, exp/ln, derivatives |
| C40-C43, C73 | `historical_swap_index_fixings.py`, `swap_curve.py` whole | list induction, products over days |
| C44-C45, C74 | `bootstrap_helpers.py` whole | induction over quotes, calendar lemmas |
| C46-C47, C76-C79 | `fx_helpers.py` whole | finite regular languages, list induction, algebra, sorting |
| C48-C54, C80-C90 | `black76_bachelier.py` and `garman_kohlhagen.py` whole | real analysis of the Black and Bachelier formulas over a proved normal distribution; list lemmas for broadcasting; arbitrary search strategies |
| C55, C91-C94 | `sabr.py` whole | intermediate values for existence, limits for continuity, algebra; arbitrary optimisers |
| C56-C57, C95 | `volatility_generic.py` whole, daily smile of `fx_volatility_surface.py` | algebra, list induction |
| C58-C60 | `monte_carlo_generic.py`, `geometric_brownian_motion.py` whole | sums over simulations, algebra |
| C66, C96 | `clewlow_strickland_1_factor.py` simulation | loop invariants over chunks, induction over steps |
| C61, C97 | simulation half of `heston.py` | invariants, moment algebra, relation between two programs |
| C62-C63, C98-C105 | pricing half of `heston.py`, `cosine_method_generic.py` | integrals, complex analysis (Riccati equations), lists |
| C64, C106-C109 | `hw1f.py` whole except fitting, moments of `hw1f2.py` | derivatives, integrals, monotone decomposition, sums over simulations |
| C65 | `enums/helper.py` and the enums of `enums/utils.py` | grammar of accepted texts, string induction |
| C67, C110, C111 | `utilities.py` L16-52 | list induction, permutations |
| C112-C116 | no new code: expectations over the pricing and simulation models above | improper integrals against the normal density, iterated over the numbers of a path |
| C117-C121 | `fx_volatility_surface.py` L104-382, `heston.py` L49-209 | cache invariant over arbitrary call histories, list induction, composition with the strike solver and the pricers |
| C122-C127 | `optionlet.py` | invariant over the loop of quotes (rows outside the current quote are kept), algebra of weighted means, composition with the Black-76, Bachelier and SABR results |
| C128-C131 | `interest_rate_option_helpers.py` | derivative matcher proved equal to the language of the expression, the three expressions characterised as texts, error bounds of binary64 rounding, refinement of the dictionaries to "last assignment" |
| C132-C135 | `hw1f.py` theta grid and search, `create_date_grid_for_fx_exposures` | induction on pillars and on the stable insertion sort, fundamental theorem of calculus (Coquelicot), case analysis of the call |
| C136-C139 | `in_progress/gbm_speed_exploration.py`, `gbm_helper` of `in_progress/monte_carlo_multiprocessing.py` | prefix products by induction, Gaussian integrals (MeanSpec), limits (Coquelicot); rates by third order expansions of the logarithm and exponential with explicit remainders |
| C140-C143 | no new code: Black-76, Bachelier and Garman-Kohlhagen prices above | derivatives in strike and forward, mean value theorem, Gaussian integrals of indicators, epsilon-delta limits |
| C144-C146 | `examples/hw1f_zcbo_valuation_v2.py` L77-128, `examples/hw1f_zcbo_valuation.py` L136-142, `examples/hw1f.py` L65-71 and L122-148 | Gaussian integrals of exponentials and payoffs along a path (change of measure by shifting the numbers), closed geometric sums, limits of sequences |
| C147, C148 | `hw1f2.py` L49-195 (`hw1f3.py` likewise), `examples/hw1f_tfqf_validation_from_scratch.py` L102-195 | Gaussian integrals along a path as in C144, Riemann sums of continuous functions over ever finer grids, telescoping sums, monotonicity of Black's formula in volatility |
| C149 | `business_day_calendar.py` L22-65 and the tables L71-169 | case analysis over the two tables, lemmas of C11 for arbitrary contents |
| C150 | `hw1f.py` L307-360 (`price_zero_coupon_bond_option`), model of C64; the minimisations of `examples/hw1f_price_optionlet_and_solve_params.py` are not modelled | Black's formula is a strictly increasing bijection of the standard deviation; monotonicity of (1-e^-x)/x and of ratios of (1-e^-kx) from their derivatives |
| C151 | `schedule.py` L243-414, model of C18-C26 | a table of placements and plans as separate spec, exhaustive branch analysis, list lemmas for merged stubs |
| C152 | `heston.py` L213-380, L654-717, model of C99-C103; `scipy.integrate.quad` is an arbitrary function assumed to find every convergent integral | the Dirichlet integral by differentiating under the integral sign, the Fourier integrals of a/(a^2+v^2) and v/(a^2+v^2) by the same parameter trick, then the characteristic function of a deterministic log price |
| C153 | `archive/ois_fixings.py`, conventions of C40-C43 | the two models are compared branch by branch; coverage from C73 |
| C154 | `heston.py` L212-267, L419-520, model of C99-C103 | epsilon-delta limit at zero as separate spec; the singular factors are rewritten with D^2 - W^2 = vv^2 (u^2 + iu), the logarithm by its remainder near one (mean value theorem), the variance path by its own equation |
| C155 | `schedule.py` L199-470, model of C18-C26 | boundaries counted from either end are compared month by month; the number of interior boundaries follows from the month indices; the additional period is characterised by the roll of the start or end date |
| C156 | `sabr.py` L13-128, model of C91-C93 | continuity of z/x(z) at zero; derivative of x(z) and the mean value theorem for the wings; the mirror identity for symmetry |
| C157 | models of C48-C50 (`black76_bachelier.py`, `garman_kohlhagen.py`) | chain rule along paths in time, forward and strike; the reported greeks are compared with the derivatives |
| C158 | `black76_bachelier.py` L333-376 (`BlackModel.hagan_normal_vol`) | value on positive rates, then alternating Taylor bounds for exp and the normal cdf (at-the-money error) and for sinh (bounds at expiry); a quadratic in vol^2 tau for the sign |
| C159 | `schedule.py` L41-192, `leg.py` L49-87, L265-270 composed: `make_schedule`, `coupon_schedule`, `new_leg`, `calc_coupon_payment` (`PInterest.v`) | shape of the coupon schedule over a schedule without gaps, then the telescoping year fractions of C23; 30/360 refuted by a two period leg |
| C160 | `volatility_generic.py` flat forward interpolation and the daily rows of `fx_volatility_surface.py` (`VolModel`) composed with `BlackModel` and `GkModel` (`PCalSpread.v`) | prices are a strictly increasing function of volatility times root of time; the daily rows lie on the lines of C95, so total variance rises day by day, by induction over the days; two pillars on consecutive days refute it without the hypothesis |
| C161 | `fx_volatility_surface.py` L68-90 and `fx_helpers.py` L66-82 (`SurfaceInitModel`), on the models of C15, C76 and C78 | composition; the spot row is the only match in a permutation of the rows |
| C162 | `fx_volatility_surface.py` L104-112 (`PillarModel`), on the models of C37 and C77 | composition; dates that are not on a zero curve shorten its column, which is then refused |
| C163 | `fx_volatility_surface.py` L115-131 (`FxPillarsModel`), on the models of C76 and C162 | composition; sorting by delivery moves whole rows |

Properties that the code violates are stated as exact characterisations (when it holds, and a `_refuted` witness that it fails otherwise).

## What is modelled, and simplifications, per file

* `schedule.py`, `daycount.py`, `business_day_calendar.py`, `tenor.py`: see the header comments of the models.
* `leg.py`, `swap.py`: `ZerocouponLeg` is not modelled (the module it needs, `discount_factor_from_zero_rate`, does not exist, so
  the class cannot be imported). The curve of a leg is an arbitrary function. The root finder of the swap solver is an arbitrary
  adaptive strategy: theorems hold for whatever points it asks for.
* `zero_curve.py`: exact reals; ties in `sort_values` are unspecified; splines are an arbitrary function of the pillars;
  `flat_shift` and plotting are not modelled. Assumed of pandas: merging an empty object date column gives an empty frame.
  Numpy broadcasting is modelled (equal lengths, or one side of length one). `np.interp` is modelled for sorted abscissae.
  Powers are modelled for positive bases. Data frame columns are distinct and of the same length.
* `historical_swap_index_fixings.py`, `swap_curve.py`: no NaT dates; the date column is a datetime column; rows of equal date come in
  unspecified order (value theorems assume one fixing per date); period starts and ends are passed as pairs.
* `bootstrap_helpers.py`: a frame is a record of optional columns with a unique index; rows of equal sort key come in unspecified order.
  `interp1d` sorts its points, takes one or more points, raises outside their range or extrapolates the outermost segment. A missing value
  stands for any non-finite number. The AU-SYDNEY calendar is an arbitrary calendar. A `month_year` column alone does nothing in the code.
* `fx_helpers.py`: column names are ASCII plus the letter Δ, and distinct; `\d` matches ASCII digits. The regular expressions have no
  repetition and are modelled as finite word lists. Texts of warnings are not modelled. Rows of equal delivery date or equal signed
  delta come in unspecified order. Forward curve dates are not missing.
* `black76_bachelier.py`: finite arithmetic is exact real arithmetic; infinities and NaN follow numpy (no signed zero, no overflow).
  `norm.cdf` is one half plus the integral of the density from zero; `PBlack` proves that this is the normal distribution function
  (Gaussian integral included). `norm.ppf` is its inverse. Arguments are non-empty one dimensional arrays of finite numbers; conversions
  take Python floats. `brentq` and L-BFGS-B are arbitrary adaptive strategies.
* `garman_kohlhagen.py`: same arithmetic. The strike solver takes scalar spot, expiry, rates and forward, as documented, and one volatility
  per delta; `root_scalar` is an arbitrary deterministic function of objective and bracket. `newton` and `brentq` of the implied volatility
  solver are arbitrary adaptive strategies.
* `sabr.py`: one dimensional arrays, a scalar being an array of length one. `np.roots` is a parameter; theorems about alpha assume it exact (`exact_solver`, inhabited by `cubic_solver`),
  so the code's `np.isreal` filter keeps exactly the real roots. `solve_alpha` is modelled for scalars and a positive shifted forward. `scipy.optimize.minimize` is an arbitrary
  strategy that evaluates the objective and ends with success or failure.
* `volatility_generic.py`: one dimensional arrays and python floats; `flat_forward_interp` on rows of times with any number of volatilities each, the shape its caller uses.
  `fx_volatility_surface.py`: `_setup_vol_smile_daily_df` for expiry dates, year fractions and volatilities; delivery dates, rates and delta conventions of the frame are not modelled. (C95; C117-C121 add them, see below).
* `monte_carlo_generic.py`, `geometric_brownian_motion.py`, `clewlow_strickland_1_factor.py`: arguments have the annotated types; counts are
  non-negative integers. The numpy generator is an arbitrary stream of reals per seed, `np.linalg.cholesky` an arbitrary partial function
  (theorems that need it assume it returns a lower triangular factor), `interp1d` of the forward curve a parameter.
* `heston.py`, simulation: parameters are finite floats, arrays extended reals; `heston_simulate` takes at least one simulation.
* `heston.py`, pricing: complex numbers are Coquelicot's, with numpy's principal branches; `None` stands for any result that is not a finite
  number, whatever form the compiled code gives it. Signed zeros are not modelled. `scipy.integrate.quad` is an arbitrary function of the integrand,
  the FFT is the discrete Fourier transform.
* `cosine_method_generic.py` and the cosine pricer: exact reals, so grid points of `cos_method` are not merged or lost by rounding; `cf` is a total
  function. `UnboundLocalError` is the `NameError` of the model. The mean and variance of the Heston log return are specified by Ito's moment
  equations, not derived from the stochastic differential equations.
* `hw1f.py`: the zero curve enters as discount factors and instantaneous forward rates (arbitrary functions of years); `quad` is an arbitrary functional and `brentq` an
  arbitrary partial function; theorems say when they are assumed exact. The theta spline is an arbitrary function, assumed to equal `get_thetas` where stated (no interpolation
  error). `simulate` is modelled for a non-negative horizon; `fit_theta` and `calc_error_for_theta_fit` are C133. `hw1f2.py`: the moment
  functions, the simulation loop and bond reconstruction for scalar mean reversion and volatility.
* `enums/utils.py`, `enums/helper.py`: texts are ASCII; a value is None (or NaN), a text, an integer or a member; members are name and value pairs. Enums of
  `enums/term_structures.py` are not modelled.
* `fx_volatility_surface.py` L68-90 (C161). `SurfaceInitModel.open_surface` covers the currencies, dates, curve date assertions, forward curve and spot rate of `FXVolatilitySurface.__post_init__`.
  The calendar is a parameter (the one given, or that of `get_busdaycal`, see C12). `convert_column_to_consistent_data_type` is taken to leave well typed frames alone. With several rows for the spot tenor
  on one delivery date the unstable sort of pandas decides which comes first; the theorems therefore speak of frames with one spot quote.
* `fx_volatility_surface.py` L104-112 (C162). `PillarModel.add_fx_ir` returns the three columns; the expiry column has no missing dates, and assigning an array whose length is not the number of rows is a ValueError of pandas.
* `fx_volatility_surface.py` L115-131 (C163). `FxPillarsModel.setup_pillars` covers the dates, year fractions and rates of the pillar frame and the quotes that move with each row. Frames with a row that has a delivery date and no expiry are outside the model.
* `fx_volatility_surface.py` L104-382 and `heston_calibrate_vanilla_smile` (C117-C121). `SurfaceModel` covers `_setup_vol_smile_daily_df`, `_setup_strike_pillar`,
  `_solve_vol_daily_smile_func` with its cache, `interp_vol_surface` and `price_vanilla_european`. One signed delta and one option type belong to each quote column.
  Forward and zero curves are a function from the expiry to (forward, domestic rate, foreign rate), all finite; delivery dates are inside that function. One-element
  arrays are scalars. The cosine pricer is called strike by strike, which is proved to be the same (`C119_cosine_vector`). scipy's splines, `root_scalar`, `quad`,
  `minimize`, `newton` and `brentq` are fields of the record `externals`; `minimize` is an arbitrary strategy that sees objective values only. The field `x_undefined` is
  what the implied volatility solver makes of a price or strike that is not finite. Not modelled: a zero forward, the greeks and split switches of surface prices,
  `simulate_gbm_fx_rate_path` (raises on its union of an index with a Timestamp), `simulate_heston_fx_rate_path`, `plot_smile`. The market function stands for the rates of `_add_fx_ir_to_df`: C162 proves that one expiry has the same rates in every frame. The pillar frame (L115-131) is C163.
* `optionlet.py` (C122-C127). `OptionletModel` covers `__post_init__`, `_solve_vol_n_atm`, `_solve_sabr_params`, `interpolate_sabr_term_structure`,
  `_validate_strike_and_option_type`, `_price_optionlets` and the three pricing methods. The class raises before L112 (C122), so the later steps are modelled as
  functions of the frames they read: sorted quotes, and rows with dates, year fractions, forwards, annuities and discount factors, all finite. A quote
  whose forward is not finite and a smile volatility of the last earlier period that is not finite are not modelled (`OutOfFuel`, never `Ok`). scipy's searches are arbitrary strategies
  that see objective values only, numpy's `roots` is a parameter, initial guesses are not modelled, `LinAlgError` is the `ValueError` it derives from. The names of quote columns are C128-C130.
* `interest_rate_option_helpers.py` (C128-C131). `ColumnModel` covers the three regular expressions, the renaming functions, `settlement_date_helper` and the start of `process_capfloor_quotes` (it raises at
  its `make_schedule` call, what happens before is a parameter). Here floats are rounded: `rn` is round to nearest even of binary64 from Flocq's definitions, without overflow and without signed zeros.
  `float` reads sign, digits, point, exponent and underscores; the texts of infinities and NaN are refused instead of read. Texts are ASCII. `repr` of a float is a parameter.
* The theta grid of `hw1f.py` (C132-C134). `FitModel` covers `setup_theta`, `get_thetas` on an array, `calc_error_for_theta_fit`, `fit_theta` with the state an exception leaves, and `get_forward_rate_by_integration`;
  scipy's `splrep`/`splev` are one parameter from points to a function, `quad` is a parameter (exact where C134 says so), tables printed are not modelled. `sorted` is a stable insertion sort; C133's choice is stated for errors that are numbers.
  `create_date_grid_for_fx_exposures` (C135): the schedule it would call is a parameter, dates are ordinals and never NaT.
* `gbm_speed_exploration.py` (C136, C137, C139): the three simulating functions; random numbers are a given sequence (flat, as the callers pass), numba's compilation and parallel loop are taken to have the sequential meaning, memory of `np.empty` is a parameter, a negative `dt` with a matching count is left out (OutOfFuel). Convergence is for exact real numbers.
* `gbm_helper` (C138): module globals are parameters, `randn` is a parameter from shapes to arrays; process pool and timing are not modelled. `option.py` L63-81 repeats the function.
* Hull-White example scripts (C144-C146): valuation from the simulated paths on; plots, standard errors and printing are not modelled. `discounted_on_path` is the valuation with the simulated discount factors
  that the scripts compute but do not use for the price; it is part of the specification. `examples/hw1f.py`'s call with unknown keywords is modelled by the parameter names. The classes of `hw1f2.py`
  and `hw1f3.py` that repeat the class of `hw1f.py` are not modelled again.
* `hw1f2.py`'s valuation (C147): one expiry and one maturity, as in the script; the grid's `np.arange` in real arithmetic (in floats it may deliver one point more or less when the expiry is a multiple of the step);
  random numbers are a sequence per sample, the mean over samples is the expectation. `analytic_valuation` (C148): one option, constant parameters; `model._variance_int` and `erf` of the libraries are taken to be
  the variance integral and the normal distribution; the simulation half of the script calls the library and is not modelled.
* Calendar names (C149): the pickled dictionaries are taken to be what the script in the same file writes; the holidays package is a parameter from calls to objects. ASCII upper case. The Excel half of the script is not modelled.
* Files that are entirely commented out (`schedule_old.py`, `interpolation.py`, `zero_curve_helpers.py`, `archive/fx_volatility_surface_old.py`, `swap_curve_old.py`, `historical_swap_index_fixings_old.py`) have nothing to model.
* Expectations (C112-C116) are improper Riemann integrals against the standard normal density, the numbers of a path integrated one after the other (`MeanSpec.expected_n`);
  the numbers the generator delivers are not claimed to be independent or normal.
* `utilities.py`: labels are texts; a cell is missing, a text or an opaque other value; dtype conversion changes no value; the row index has no name; ids of messages are integers.

## Axioms

`Print Assumptions` is printed under every theorem, except that `PBlack` and later real analysis files print it once for the tuple of all
theirs (`all_theorems`), which lists the union. Integer, list and string areas (`PDayCount`, `PBusDay`, `PTenor`, `PSchedule`, `PEnum`, `PTable`) are
closed under the global context, except where a statement goes to the reals. All others list at most
`ClassicalDedekindReals.sig_forall_dec`, `ClassicalDedekindReals.sig_not_dec`,
`FunctionalExtensionality.functional_extensionality_dep`, `Classical_Prop.classic`, all from the standard library.

## Wrong programs

`seeded/LOG.jsonl` has one line for each edit of a definition that was tried on a scratch copy. `failed` lists the theorems whose proof no longer goes through, `tightened` the theorems added or strengthened because
of that edit, and `note` says why an edit that broke nothing cannot be observed.

* A proof that breaks is replaced by a scratch axiom and the theorems are those for which `Print Assumptions` then lists it. In files that print the assumptions of all theorems at once, the list of the
  earlier entries was found from the names occurring in proofs. It was afterwards reduced to theorems that depend on the edited definition, by `Print Transparent Dependencies` or through their statement, so
  at least one theorem of each list is confirmed by Coq, but a list may still be too long. The entries of the last part of the log come from one `Print Assumptions` per theorem.
* A theorem that fails is one whose proof breaks: its statement may still hold of the wrong program with another proof, in particular when several theorems share a lemma. The lists for C162 and C163 were shortened by reading to the statements that no longer hold.
