{"id": "C01", "title": "ACT day counts are the elapsed days and add up", "statement": "For every actual/x basis, day_count(a,b) is exactly the number of calendar days from a to b; it is never negative, and for a<=b<=c day_count(a,b)+day_count(b,c)=day_count(a,c). A reversed pair is rejected rather than given a negative count.", "quantifier": "all calendar dates a<=b<=c, all four ACT bases", "why_tests_cant": "Unbounded set of date triples across leap years and centuries; a test samples a few.", "anchors": ["frm/utils/daycount.py: day_count"]}
{"id": "C02", "title": "ACT/ACT year fractions are additive, strictly increasing and exact on anniversaries", "statement": "year_frac with ACT/ACT satisfies yf(a,b)+yf(b,c)=yf(a,c); it is strictly positive for a<b; from 1 January of year y to 1 January of year z it is exactly z-y.", "quantifier": "all calendar dates a<=b<=c, all years", "why_tests_cant": "The leap/non-leap denominators interact at every year boundary; additivity must hold for every split point, which sampling cannot cover.", "anchors": ["frm/utils/daycount.py: year_frac"]}
{"id": "C03", "title": "30E/360 counts are additive and never negative", "statement": "day_count with 30E/360 satisfies dc(a,b)+dc(b,c)=dc(a,c) and dc(a,b)>=0 for all a<=b<=c, and every full calendar month starting on its first day counts 30 days.", "quantifier": "all calendar dates a<=b<=c", "why_tests_cant": "All combinations of month lengths, 31sts and Februaries at three points.", "anchors": ["frm/utils/daycount.py: day_count (_30E_360 branch)"]}
{"id": "C04", "title": "30/360 (bond basis): exact additivity defect, and non-negative", "statement": "day_count with 30/360 is never negative for a<=b; splitting a period at b changes the total by exactly the end-of-month corrections (0 or +/-1 day each); splitting is exact whenever no date is a 31st, and not in general.", "quantifier": "all calendar dates a<=b<=c", "why_tests_cant": "The defect depends on three days-of-month at once; a sampled test would either miss it or assert false additivity.", "anchors": ["frm/utils/daycount.py: day_count (_30_360 branch)"]}
{"id": "C05", "title": "30E/360 (ISDA) is negative exactly for an empty period on the last day of February at termination", "statement": "day_count with 30E/360 ISDA is >=0 for all a<=b and flags, except when a=b is the last day of February and the end date is flagged (or defaulted) as termination, where it is -1 (leap) or -2. Away from the end of February it is 30E/360. Counts add up over any split when only the end of the whole may be flagged, and ends of months are thirty days apart per month (one or two less when the later one is the flagged end of February).", "quantifier": "all calendar dates a<=b, both termination flags", "why_tests_cant": "A single corner per year out of all date pairs; only a universally quantified case analysis shows there is no other.", "anchors": ["frm/utils/daycount.py: day_count (_30E_360_ISDA branch)"]}
{"id": "C06", "title": "Vector day counts are elementwise and the termination flag is positional", "statement": "day_count on vectors equals the scalar rule applied elementwise, where by default only the last element is treated as the termination date; a scalar start or end is broadcast; any reversed pair anywhere rejects the whole call.", "quantifier": "all vectors of dates of any length, all bases", "why_tests_cant": "Vectors of arbitrary length with a bad pair at an arbitrary index.", "anchors": ["frm/utils/daycount.py: day_count, convert_to_same_shape_datetimeindex"]}
{"id": "C07", "title": "Year fractions scale with the day count and respect basis denominators", "statement": "For a<=b the year fraction in ACT/360, ACT/365 and ACT/366 times its denominator is the ACT day count, hence ACT/360 >= ACT/365 >= ACT/366, and the ACT/ACT fraction lies between the ACT/366 and ACT/365 fractions.", "quantifier": "all calendar dates a<=b", "why_tests_cant": "Ordering must hold for every pair of dates, over arbitrarily long horizons spanning leap years.", "anchors": ["frm/utils/daycount.py: year_frac"]}
{"id": "C08", "title": "Following/preceding rolls give the nearest business day", "statement": "Rolling with following (preceding) always terminates with a business day, not before (after) the input date, with no business day strictly in between; rolling a business day is the identity, so rolling is idempotent, and it is monotone in the date.", "quantifier": "all dates, all week masks with at least one working day, all holiday lists of any length and order", "why_tests_cant": "Arbitrary holiday lists (e.g. weeks of consecutive holidays) cannot be enumerated; termination itself is a universal claim.", "anchors": ["frm/utils/tenor.py: workday", "frm/utils/schedule.py: generate_date_schedule, BaseSchedule.add_payment_dates"]}
{"id": "C09", "title": "Modified rolls never leave the month if the month has a business day", "statement": "Rolling with modifiedfollowing / modifiedpreceding gives a business day in the same calendar month as the input whenever that month contains any business day, and agrees with following/preceding when these already stay in the month.", "quantifier": "all dates, all calendars", "why_tests_cant": "Depends on the position of the last business day of every month under every holiday list.", "anchors": ["frm/utils/schedule.py: generate_date_schedule", "frm/enums/utils.py: RollConv"]}
{"id": "C10", "title": "Workday offsets count business days exactly and are invertible", "statement": "workday(d, n>=0) lands on a business day with exactly n business days after the rolled date up to and including it; offsets compose (n then m = n+m), and stepping back n from the result returns the rolled start date.", "quantifier": "all dates, all calendars, all offsets n, m >= 0", "why_tests_cant": "Inductive in n and the calendar; unbounded.", "anchors": ["frm/utils/tenor.py: workday", "frm/utils/schedule.py: BaseSchedule.add_payment_dates", "frm/utils/tenor.py: resolve_fx_curve_dates"]}
{"id": "C11", "title": "A joint calendar's business days are the intersection of its members'", "statement": "The calendar built for several locations/currencies treats a day as a business day iff every member calendar does; the order and repetition of members do not matter. The week mask of a weekend set exists exactly when all its weekdays lie between -7 and 6 (IndexError otherwise), and weekday j is open iff neither j nor j - 7 is in the set.", "quantifier": "all lists of member calendars, all dates", "why_tests_cant": "Every list of calendars, every permutation and every date.", "anchors": ["frm/utils/business_day_calendar.py: get_busdaycal, convert_weekend_to_weekmask"]}
{"id": "C12", "title": "Tenor cleaning ignores case, spaces, slashes and line breaks", "statement": "clean_tenor gives the same result for any two strings that differ only in letter case and in inserted/removed spaces, slashes, carriage returns and newlines.", "quantifier": "all (ASCII) strings of any length", "why_tests_cant": "Unbounded strings.", "anchors": ["frm/utils/tenor.py: clean_tenor"]}
{"id": "C13", "title": "Tenor parsing accepts exactly the documented grammar, with the right length", "statement": "tenor_to_date_offset succeeds iff the cleaned tenor is on/tn/sp/sn/sw, or a number followed by d, w, m or y, or <number>y<number>m; the offset is the stated number of days, 7*weeks, months, 12*years (+ months). Everything else is rejected.", "quantifier": "all strings, all numbers of any number of digits", "why_tests_cant": "Both acceptance and rejection range over infinitely many strings.", "anchors": ["frm/utils/tenor.py: tenor_to_date_offset"]}
{"id": "C14", "title": "Cleaning understands unit words and names, is stable on recognised tenors, but is not idempotent in general", "statement": "A number followed by any listed unit word (day(s), week(s), month(s), mon, year(s), yr(s) ...), in any case and with surrounding spaces, cleans to the number followed by the unit letter; likewise a count of years followed by a count of months; and the named tenors (overnight, tomorrow next, spot ...) clean to their codes. If a cleaned tenor is accepted by tenor_to_date_offset then cleaning it again changes nothing; for arbitrary strings a second cleaning can change the result.", "quantifier": "all strings, all digit strings, all listed unit words and names", "why_tests_cant": "Idempotence over all strings and correctness of ordered word replacement for every number; the counterexample needs overlapping unit names.", "anchors": ["frm/utils/tenor.py: clean_tenor, tenor_to_date_offset"]}
{"id": "C15", "title": "FX curve-date resolution is consistent, and ignores a user-supplied spot offset", "statement": "With only the curve date, the spot date is the spot-lag-th business day after it; with only the spot date, the curve date is the spot-lag-th business day before it; the two agree on business days. A supplied spot_offset is replaced by the market convention whenever exactly one date is given, and supplying all three always fails. A pair that is not six characters long fails with TypeError when one date is given.", "quantifier": "all currency pairs, calendars, dates and offsets", "why_tests_cant": "Every calendar/date/offset combination.", "anchors": ["frm/utils/tenor.py: resolve_fx_curve_dates, get_fx_spot_day_offset, check_day_offset_consistency"]}
{"id": "C16", "title": "The implied business-day offset is always zero", "statement": "calc_implied_business_day_offset either fails or returns 0, for every pair of dates; so the implied spot lag is never the actual number of business days unless both dates coincide after rolling. check_day_offset_consistency therefore passes only for the offset 0 of a date on or before the date, raises ValueError for any other offset of such a date, and AssertionError for every later date.", "quantifier": "all dates and calendars", "why_tests_cant": "A universally false answer looks like a plausible value in any single example with lag 0.", "anchors": ["frm/utils/tenor.py: calc_implied_business_day_offset"]}
{"id": "C17", "title": "FX spot lag does not depend on the quoting direction", "statement": "get_fx_spot_day_offset gives the same lag for a pair and its inverse, for every 6-letter pair, and is 1 or 2. get_ir_settlement_offset is 0 for the lower-case string 'gbp' and 2 for every other string.", "quantifier": "all 6-character strings; all currency strings", "why_tests_cant": "All strings; a hand list of exceptions is exactly where an inverse may be forgotten.", "anchors": ["frm/utils/tenor.py: get_fx_spot_day_offset", "frm/utils/tenor.py: get_ir_settlement_offset"]}
{"id": "C18", "title": "Schedule generation always terminates", "statement": "generate_date_schedule returns for every start<end, every frequency other than ZERO_COUPON, every day roll, every business-day convention other than UNADJUSTED and every calendar; the number of periods times the shortest period length in days is at most the span plus a constant plus a week per holiday. start>=end and RollConv.UNADJUSTED raise ValueError, ZERO_COUPON raises TypeError; make_schedule also returns or raises on all arguments.", "quantifier": "all dates, frequencies, day rolls, roll conventions and calendars", "why_tests_cant": "Non-termination needs a universally quantified argument; pathological calendars cannot be enumerated.", "anchors": ["frm/utils/schedule.py: generate_date_schedule"]}
{"id": "C19", "title": "Schedules are contiguous", "statement": "In every schedule returned by generate_date_schedule, and by make_schedule when roll_user_specified_dates is off, the end of each period is the start of the next one, and there are as many starts as ends. (With roll_user_specified_dates and a first_period_end on a non-business day make_schedule leaves a gap.)", "quantifier": "all inputs on which it returns", "why_tests_cant": "All spans, frequencies, directions, conventions.", "anchors": ["frm/utils/schedule.py: generate_date_schedule"]}
{"id": "C20", "title": "Schedules start at the start date and finish at the end date", "statement": "A schedule's first period starts at the start date and its last period ends at the end date (both rolled to business days exactly when roll_user_specified_dates is set), for generate_date_schedule in both directions and for make_schedule with every stub setting. The schedule object built on make_schedule fails exactly when make_schedule does, and its start_date and end_date afterwards are the first period start and the last period end of its table.", "quantifier": "all inputs on which it returns", "why_tests_cant": "All spans and conventions.", "anchors": ["frm/utils/schedule.py: generate_date_schedule, make_schedule"]}
{"id": "C21", "title": "No month-end drift: each date is computed from the anchor", "statement": "The i-th unadjusted date of a forward schedule is start + i periods (end - i periods when backward) clamped to month end once, never the result of repeatedly clamping; so a schedule from the 31st returns to the 31st (or the month end) in every long month.", "quantifier": "all anchors, all i", "why_tests_cant": "For all i; drift only shows after some February.", "anchors": ["frm/utils/schedule.py: generate_date_schedule", "frm/enums/utils.py: PeriodFreq.multiply_date_offset"]}
{"id": "C22", "title": "Monthly-or-longer schedules with modified rolls are strictly increasing", "statement": "For frequencies of a month or longer, modified rolls and calendars with a business day in each month, start, interior boundaries and end are strictly increasing; interior boundaries are nondecreasing for every roll when the day of month is unadjusted or the frequency is in months. Daily schedules may contain duplicate dates, and may end the first period before it starts.", "quantifier": "all anchors, all calendars, all such frequencies", "why_tests_cant": "Needs every calendar and span.", "anchors": ["frm/utils/schedule.py: generate_date_schedule"]}
{"id": "C23", "title": "Period day counts add up to the whole schedule", "statement": "For a contiguous schedule the ACT period day counts (and ACT/ACT year fractions) sum to the day count (year fraction) from the first period start to the last period end.", "quantifier": "all schedules of any length", "why_tests_cant": "Telescoping over arbitrary length.", "anchors": ["frm/utils/schedule.py: BaseSchedule.add_period_daycount, add_period_yearfrac"]}
{"id": "C24", "title": "Payment dates are business days, not before the period date, and ordered", "statement": "Each payment date is a business day obtained from the period date by rolling and moving `delay` business days; rows without a date get no payment date. With the FOLLOWING roll and delay>=0 it is exactly `delay` business days after the first business day on or after the period date. For every roll and delay payment dates are ordered like the period dates. With MODIFIED_FOLLOWING (the default) a payment can precede the period end. Without a roll convention (UNADJUSTED), or with an unknown timing, ValueError is raised whatever the rows.", "quantifier": "all schedules, delays, calendars", "why_tests_cant": "All schedules and calendars.", "anchors": ["frm/utils/schedule.py: BaseSchedule.add_payment_dates"]}
{"id": "C25", "title": "Notional exchange flows", "statement": "With a scalar notional the notional payments are -N on the initial exchange date (the first period start unless given) for START/BOTH and +N at the last payment date for END/BOTH, zero otherwise, so they total 0 for BOTH and NEITHER; the initial exchange is an extra row without period and with notional 0. Every vector notional whose length is not 1 is rejected with ValueError. CouponSchedule adds coupon dates and changes nothing else.", "quantifier": "all schedules of any length, all exchange flags, all notionals", "why_tests_cant": "All lengths; the vector rejection must be shown for every vector.", "anchors": ["frm/utils/schedule.py: NotionalSchedule"]}
{"id": "C26", "title": "Stub handling", "statement": "make_schedule without user dates: the pair of stub settings selects backward or forward generation with or without merging the irregular period into its neighbour, or is rejected, per an explicit table (two explicit stubs are always rejected); a LONG stub removes exactly the boundary next to the stub and keeps the ends, and is rejected on a one-period span. A first_period_end given alone is the end of the first period unless last_stub is LONG; a last_period_start given alone is the start of the last period unless first_stub is LONG or NONE; with both given one of them can be ignored.", "quantifier": "all schedules and stub settings", "why_tests_cant": "Every schedule length (including one and two periods) and setting.", "anchors": ["frm/utils/schedule.py: make_schedule"]}
{"id": "C27", "title": "Fixed coupon amounts are notional x rate x year fraction, and are positive on both sides", "statement": "A fixed leg's coupon for a period is the unsigned schedule notional x rate x yearfrac on both sides (the multiplier is applied twice), so a pay leg and a receive leg with the same terms have identical coupons although their notional payments and their accrued amounts are opposite; consequently an exact par solve returns opposite rates on the two sides. A new leg keeps every schedule row, gives row i the i-th listed rate (counting from the first coupon row when an initial exchange adds a row, which has no rate) or the single rate, and the year fraction of its own dates with only the last whole period treated as ending on termination; a list of rates that is neither single nor one per coupon row raises ValueError.", "quantifier": "all legs, notionals, rates, schedules", "why_tests_cant": "Sign must be established for every leg; a test that checks only a receiver leg passes.", "anchors": ["frm/instruments/leg.py: Leg.__post_init__, FixedLeg.calc_coupon_payment", "frm/enums/utils.py: PayRcv.multiplier"]}
{"id": "C28", "title": "A leg's PV is the discounted sum of its future payments only", "statement": "calc_dirty_pv equals the sum over rows of (notional payment x DF + coupon x DF) with payments before the value date (or on it, unless configured otherwise) contributing zero and rows without a date contributing zero; a row whose coupon is NaN contributes nothing at all, its notional payment included. Without a curve it raises MarketDataNotAvailableError, and with a curve that answers fewer dates than asked it raises ValueError.", "quantifier": "all legs of any length, curves, value dates, both settings", "why_tests_cant": "All row lists and cut-off positions.", "anchors": ["frm/instruments/leg.py: Leg.calc_dirty_pv, Leg._discount_payments"]}
{"id": "C29", "title": "Leg PV is linear in the notional and affine in the fixed rate", "statement": "Scaling the notional by k scales the fixed leg PV by k; the PV as a function of the fixed rate is affine with slope the annuity, so the solved rate is unique when the annuity is nonzero and reprices the target exactly.", "quantifier": "all legs, scales, rates, targets", "why_tests_cant": "Universally quantified algebra over row lists.", "anchors": ["frm/instruments/leg.py: Leg.calc_dirty_pv, Leg._solver_helper, FixedLeg.calc_coupon_payment"]}
{"id": "C30", "title": "Solving restores the contractual rate but leaves the coupon payments of the last trial", "statement": "After target_solve/par_solve the leg's rate column is what it was before, for every solver behaviour including failure; the coupon payment column however is that of the last evaluated trial rate, and an exception inside is swallowed into NaN. A swap solves each leg by itself for par and restores both.", "quantifier": "all legs, all sequences of trial rates evaluated by the root finder, including failure", "why_tests_cant": "Quantifies over every sequence of solver evaluations.", "anchors": ["frm/instruments/leg.py: Leg._solver_helper"]}
{"id": "C31", "title": "Current / non-current split adds up only when misallocated amounts cancel", "statement": "get_current_non_current_split's parts sum to the dirty PV exactly when the coupon PV beyond one year equals the notional PV whose coupon date is beyond one year; in general they do not. Without recalculation the split uses the values stored by the last valuation and is a KeyError if there was none.", "quantifier": "all legs, value dates", "why_tests_cant": "Any leg; the exact condition is universal.", "anchors": ["frm/instruments/leg.py: Leg.get_current_non_current_split"]}
{"id": "C32", "title": "Payment buckets partition the future payments", "statement": "For increasing bucket bounds, the bucketed amounts sum to the total of all payments after the value date: no payment is lost or counted twice. The table has one row per bound plus one; the notional column of a row is the sum of the principal payments falling in its bucket, the coupon column the sum of the coupons paid in it, the third column their sum. Without priced coupons the call raises KeyError, without bounds NameError (UnboundLocalError).", "quantifier": "all legs, payment dates, increasing bucket lists of any length", "why_tests_cant": "All lists of buckets and payments.", "anchors": ["frm/instruments/leg.py: Leg._bucket_payments_helper"]}
{"id": "C33", "title": "Accrued interest includes every coupon of the leg", "statement": "calc_accrued_interest returns the accrued amount plus the sum of all coupons (past and future), which equals the accrued amount plus the unsettled coupons exactly when the other coupons total zero; with the limit setting it returns the sum of all coupons whenever that is positive. With no current period it raises IndexError (so there is no clean PV before the first or after the last period), and on a leg not yet valued it fails. With a current period accrued interest is refused only by the day count, or with KeyError when the coupons column (for an overnight leg also the rates column) is missing.", "quantifier": "all legs, value dates", "why_tests_cant": "The needed filter is computed but not used; whether this matters is a statement over all schedules.", "anchors": ["frm/instruments/leg.py: Leg.calc_accrued_interest"]}
{"id": "C34", "title": "Swap values are the sum of leg values", "statement": "dirty, accrued and clean PV of a swap are the sums over its two legs and clean = dirty - accrued; a swap requires opposite pay/receive flags.", "quantifier": "all pairs of legs", "why_tests_cant": "Universal algebra.", "anchors": ["frm/instruments/swap.py: Swap"]}
{"id": "C35", "title": "Zero rate <-> discount factor conversions are inverse for every compounding", "statement": "For each compounding frequency, converting a zero rate to a discount factor over t>0 years and back (and vice versa) is the identity on the valid domain; discount factors are positive, equal 1 at zero rate, and strictly decrease in the rate.", "quantifier": "all frequencies, all real t>0, all rates above the frequency's pole, all DF>0", "why_tests_cant": "Continuum of inputs.", "anchors": ["frm/enums/utils.py: CompoundingFreq.calc_zero_rate_from_discount_factor, calc_discount_factor_from_zero_rate"]}
{"id": "C36", "title": "Rate conversion preserves the discount factor, except for simple rates", "statement": "convert_rate_to between any two non-simple frequencies preserves the discount factor at every maturity and is invertible; with SIMPLE on either side it preserves it at t=1 only.", "quantifier": "all pairs of frequencies, rates, maturities", "why_tests_cant": "Continuum of inputs; the failing set (t<>1) is exactly characterised.", "anchors": ["frm/enums/utils.py: CompoundingFreq.convert_rate_to", "frm/term_structures/zero_curve.py: ZeroCurve._process_pillar_df"]}
{"id": "C37", "title": "Log-linear interpolation reproduces pillars, keeps discount factors positive and monotone", "statement": "A linear-on-log-DF curve can be built from any quotes at distinct positive maturities with positive discount factors; it returns exactly the pillar discount factor at each pillar, 1 at the curve date, the weighted geometric mean of the neighbouring pillars in between, values between the smallest and largest pillar, positive, and non-increasing if the pillars are. It covers exactly the days from the curve date to the latest quoted date; a quote on the curve date is rejected. Zero rates without a compounding frequency are rejected with ValueError. For every interpolation method the continuous zero rate r and the discount factor v looked up at the same date or the same year fraction t satisfy v = exp(-r t), and on spline curves a date and its year fraction give the same factor and the same rate.", "quantifier": "all pillar lists of any length, order and column kind (tenor, date, days, years; DF or zero rate), all calendars, all day count bases except 30E/360 ISDA, all dates in range", "why_tests_cant": "All pillar sets and all intermediate times.", "anchors": ["frm/term_structures/zero_curve.py: ZeroCurve._process_pillar_df, _setup_daily_df"]}
{"id": "C38", "title": "Forward rates are consistent with discount factors (no arbitrage)", "statement": "For each forward type, compounding the forward over the period times the end DF gives the start DF; forwards over consecutive periods compound to the forward over the joined period and continuous forwards average. Weighted and simple average forwards are the mean of the daily simple rates over all days or business days of the period (always missing on ACT/ACT), the weighted average never exceeds the daily compounded forward when DFs do not increase, and ill-formed periods raise.", "quantifier": "all curves (any interpolation), all lists of periods inside the curve, all day count bases except 30E/360 ISDA", "why_tests_cant": "All curves and dates.", "anchors": ["frm/term_structures/zero_curve.py: ZeroCurve.get_forward_rates"]}
{"id": "C39", "title": "Out-of-range dates are dropped instead of returning NaN or the flat value", "statement": "Looking up dates returns one value per requested date inside the curve range or missing: each out-of-range date shortens the result, whatever the extrapolation setting, so results align with the request iff all dates are in range; a single out-of-range date raises IndexError. A vector of two forwards whose second period ends beyond the curve silently divides by the first period's end discount factor. A lookup by numbers of days reads the row that many days after the curve date. Lookups take exactly one kind of argument: none raises StopIteration, two or more ValueError; lookup by years raises ValueError on a log-linear curve. Period forward rates (simple, daily compounded, continuous, annual) are returned exactly when all of the period starts or just one of them, and all of the period ends or just one, lie on the curve; otherwise the call raises ValueError.", "quantifier": "all date lists, both extrapolation settings", "why_tests_cant": "All date lists and positions.", "anchors": ["frm/term_structures/zero_curve.py: ZeroCurve.index_daily_data"]}
{"id": "C40", "title": "As-of fixing lookup returns the latest fixing at or before each date, in input order", "statement": "For a fixing table in date order, TermFixings.index_historical_fixings returns for every requested date, in the caller's order, the value of the latest fixing at or before that date (NaN when there is none, or when that fixing is NaN); fixings after all requested dates have no effect. A table that is not in date order is rejected with ValueError.", "quantifier": "all fixing tables, all lists of requested dates in any order with repetitions", "why_tests_cant": "Holds for every table and every permutation of the requested dates; tests fix one table.", "anchors": ["frm/term_structures/historical_swap_index_fixings.py: TermFixings.index_historical_fixings"]}
{"id": "C41", "title": "Coupon rates from daily fixings", "statement": "For a table with one fixing per date, the daily compounded rate r of a period [s,e) satisfies 1 + r*(e-s)/n = product over the days of 1 + f(d)/n, where f(d) is the latest fixing in [s,d] (days without one earn nothing). If a fixing exists on s and all fixings of the period lie in [lo,hi], the growth lies between (1+lo/n)^days and (1+hi/n)^days; a one-day period earns its fixing. The weighted average is the average of f over the days having a fixing, the simple average is the mean of the period's fixings, and the weighted average never exceeds the compounded rate for non-negative fixings.", "quantifier": "all fixing tables, all lists of periods, all day-count bases", "why_tests_cant": "Products and averages of arbitrary length.", "anchors": ["frm/term_structures/historical_swap_index_fixings.py: RFRFixings._calculate_coupon_rate", "frm/term_structures/historical_swap_index_fixings.py: RFRFixings.get_coupon_rates"]}
{"id": "C42", "title": "RFR coupon periods across the curve date", "statement": "Every non-empty period is exactly one of future, past or straddling the curve date. For each period the returned daily compounded rate r gives growth 1 + r*(e-s)/N equal to the growth of the past fixings up to the curve date times the curve's ratio of discount factors from there on. The result exists when every day before the curve date has a fixing, has one rate per period, and the rate of a period does not depend on the other periods of the call.", "quantifier": "all curves that can be built, all period lists with start<end within the curve, all fixing tables", "why_tests_cant": "All mixtures of periods around the curve date.", "anchors": ["frm/term_structures/swap_curve.py: RFRSwapCurve.get_fixings", "frm/term_structures/swap_curve.py: RFRSwapCurve._get_crossover_coupon_rate"]}
{"id": "C43", "title": "Term fixings ignore the curve", "statement": "When TermSwapCurve.get_fixings returns, a period starting on or after the curve date gets the latest historical fixing at or before its start (the forward rates computed from the curve are overwritten), and a period starting before the curve date gets NaN; so the curve and the forward type never affect a returned value. It returns for every table in date order when the future periods lie within the curve.", "quantifier": "all curves, fixing tables in date order and period lists", "why_tests_cant": "All lists and cut-offs; the defect hides behind plausible values.", "anchors": ["frm/term_structures/swap_curve.py: TermSwapCurve.get_fixings"]}
{"id": "C44", "title": "Bootstrapped deposits and futures reprice their quotes", "statement": "The discount factors produced from deposit and futures quotes reprice every quote exactly: DF(effective)/DF(maturity) = 1 + rate x period. Rows come back ordered by date, each quote once, with positive discount factors. A deposit that settles on the curve date starts from DF 1. A later one starts from the DF of a deposit maturing on exactly its start date, and the deposits are solvable if and only if such a deposit exists for each of them. A future starts from the log-linear interpolation (or extrapolation) of the cash curve and of the futures before it, and from the knot itself where there is one. Forward rates are (100 - price)/100 - convexity/10000; a frame without prices raises KeyError unless futures rates and convexities are both given, even when forward rates are given.", "quantifier": "all lists of quotes of any length, all dates, rates with positive growth, day count bases without special treatment", "why_tests_cant": "Induction over the quotes with a growing curve.", "anchors": ["frm/term_structures/bootstrap_helpers.py: bootstrap_cash_rates, bootstrap_futures"]}
{"id": "C45", "title": "ASX bill futures dates", "statement": "For rows in chronological order, each contract settles on the second Friday of its month (a day from 8 to 14), expires the Thursday before and matures on the first business day on or after three months later. The helper accepts exactly the lists of distinct March/June/September/December contracts and raises ValueError on others. Dates are handed out by chronological position, so the rows get their own dates if and only if they are listed in chronological order. Tickers are read as exactly IR, a month code of H/M/U/Z and one digit for the years 2020 to 2029, ignoring case and surrounding blanks; everything else is rejected, including the longer year codes the code says it supports.", "quantifier": "all lists of contracts, all years, all strings, all calendars with a business day", "why_tests_cant": "All years, all strings, all orders of the rows.", "anchors": ["frm/term_structures/bootstrap_helpers.py: futures_helper_asx_90day"]}
{"id": "C46", "title": "Strategy quotes convert to call/put quotes and back", "statement": "With an ATM column and the same deltas quoted for risk reversals and butterflies, solve_call_put_quotes_from_strategy_quotes succeeds: strategy columns are removed, every other given column (including given put or call quotes) is kept unchanged, and each missing leg is added. The computed legs satisfy call-put=RR and (call+put)/2-ATM=BF and are the only ones that do. Without an ATM column, or when the quoted deltas differ, it raises AssertionError. When the quoted deltas agree but a strategy column of one of them has another name than NN_delta_butterfly or NN_delta_riskreversal, it raises KeyError.", "quantifier": "all frames of quotes with distinct column names, all numbers of deltas and rows", "why_tests_cant": "Continuum of quotes and any set of columns in any order.", "anchors": ["frm/term_structures/fx_helpers.py: solve_call_put_quotes_from_strategy_quotes"]}
{"id": "C47", "title": "Smile columns are ordered by strike side", "statement": "get_delta_smile_quote_details orders puts by increasing |delta|, then ATM, then calls by decreasing delta, whatever the input column order, keeps every quote once, and pairs each with its signed delta and call/put flag. It always succeeds on quotes that went through column cleaning and strategy solving.", "quantifier": "all sets of quote columns, all orders", "why_tests_cant": "All permutations and sizes.", "anchors": ["frm/term_structures/fx_helpers.py: get_delta_smile_quote_details", "frm/term_structures/fx_helpers.py: clean_vol_quotes_column_names"]}
{"id": "C48", "title": "Put-call parity (Black76, Bachelier, Garman-Kohlhagen)", "statement": "Call minus put price equals annuity x (F-K) for Black76 and Bachelier, and S e^{-rf T} - K x (domestic discount factor) for Garman-Kohlhagen, where the discount factor is e^{-rd T} without a market forward and S e^{-rf T}/F with one; at expiry it equals S - K.", "quantifier": "all real parameters in the domain", "why_tests_cant": "Continuum.", "anchors": ["frm/pricing_engine/black76_bachelier.py: black76_price, bachelier_price", "frm/pricing_engine/garman_kohlhagen.py: garman_kohlhagen_price"]}
{"id": "C49", "title": "Option prices respect no-arbitrage bounds and increase with volatility", "statement": "For positive shifted forward and strike, expiry, volatility and annuity, black76_price returns a price strictly above annuity x intrinsic and strictly below annuity x (F+s) for calls or annuity x (K+s) for puts, strictly increasing in volatility and in expiry; a price has an implied volatility iff it lies strictly inside these bounds, and then exactly one. bachelier_price likewise, with no upper bound and any F, K. garman_kohlhagen_price likewise with discounted bounds; there the implied volatility is unique even among negative volatilities.", "quantifier": "all real F, K, shift, tau, vol, annuity in the domain, calls and puts, all target prices", "why_tests_cant": "Continuum; monotonicity, existence and uniqueness are calculus statements.", "anchors": ["frm/pricing_engine/black76_bachelier.py: black76_price, black76_solve_implied_vol, bachelier_price", "frm/pricing_engine/garman_kohlhagen.py: garman_kohlhagen_price"]}
{"id": "C50", "title": "Which analytical greeks are derivatives of the price", "statement": "Reported delta and vega of Black76 and Bachelier, and spot delta, forward delta, vega (per 1%) and gamma (delta change per 1% spot move) of Garman-Kohlhagen are the corresponding derivatives. Bachelier theta is multiplied by 365.25 where one day of decay needs a division. Garman-Kohlhagen theta is minus the time derivative over 365.25 for calls iff the two rates agree, and for puts misses it by twice the interest on the premium even then; rho is the rate derivative iff the option is a call and the rates agree, and is never negative; with a market forward the price does not depend on the domestic rate but rho is still positive.", "quantifier": "all real parameters in the domain", "why_tests_cant": "Continuum; finite-difference tests only sample and tolerate errors.", "anchors": ["frm/pricing_engine/black76_bachelier.py: black76_price, bachelier_price", "frm/pricing_engine/garman_kohlhagen.py: garman_kohlhagen_price"]}
{"id": "C51", "title": "Shift invariance and homogeneity of Black76", "statement": "Adding the same amount to F and K and subtracting it from the lognormal shift does not change the price; scaling shifted F and K by k scales the price by k.", "quantifier": "all real parameters", "why_tests_cant": "Continuum.", "anchors": ["frm/pricing_engine/black76_bachelier.py: black76_price"]}
{"id": "C52", "title": "Strike from delta inverts the delta", "statement": "One strike is returned per delta. Under regular_spot/regular_forward the strike reproduces the signed delta exactly (delta non-zero, |delta| below the foreign discount factor for spot), the 'forward' at-the-money strike has forward deltas +-1/2 so that call and put cancel, and unattainable deltas give NaN. Under the premium adjusted conventions the strike reproduces the delta net of premium to within the root finder's residual, and the at-the-money strike makes premium adjusted call and put deltas cancel.", "quantifier": "all market data, all lists of quotes, every root finder", "why_tests_cant": "Continuum of inputs and unbounded lists; root finder is external.", "anchors": ["frm/pricing_engine/garman_kohlhagen.py: garman_kohlhagen_solve_strike_from_delta, garman_kohlhagen_price"]}
{"id": "C53", "title": "Pricing with the forward equals pricing with the implied domestic rate", "statement": "garman_kohlhagen_price given F returns exactly the result (price, split, greeks or error) given r_d = ln(F/S0)/tau + r_f without F; at tau=0 the price is the intrinsic value.", "quantifier": "all parameters", "why_tests_cant": "Continuum.", "anchors": ["frm/pricing_engine/garman_kohlhagen.py: garman_kohlhagen_price"]}
{"id": "C54", "title": "ATM normal/lognormal volatility conversions", "statement": "black76_sln_to_normal_vol at |F-K|<1e-10 and normal_vol_atm_to_black76_sln_atm give volatilities with equal ATM Black76 and Bachelier prices and are inverse to each other; the latter returns a finite volatility exactly when vol_n*sqrt(tau)*pdf(0) < F+shift, +inf on equality and NaN above. Off the money black76_sln_to_normal_vol matches prices within 0.001% or returns the fallback minimiser's report. normal_vol_to_black76_sln discards the closed form even at the money and returns whatever the minimiser reports with success. With a minimiser that claims no success and reports the objective at an evaluated point, normal_vol_to_black76_sln and shift_black76_vol return only volatilities whose price is within 0.001% of the target, and accept every such point. They raise ZeroDivisionError when the initial guess divides by zero.", "quantifier": "all F+s, tau, vol > 0; all behaviours of the numerical solvers", "why_tests_cant": "Continuum; solver behaviour is external.", "anchors": ["frm/pricing_engine/black76_bachelier.py: normal_vol_atm_to_black76_sln_atm, black76_sln_to_normal_vol, normal_vol_to_black76_sln, shift_black76_vol"]}
{"id": "C55", "title": "SABR alpha solved from the ATM volatility reproduces it", "statement": "With an exact polynomial solver, an alpha returned by solve_alpha_from_sln_vol, put back into calc_sln_vol_for_strike_from_sabr_params at the forward, returns the input volatility, and no other alpha that does so is closer to vol*(F+shift)^(1-beta). An alpha is returned exactly when one exists, otherwise ValueError; for beta other than 1 and positive expiry one always exists, and a positive one for a positive volatility; for beta 1 it exists exactly when a discriminant is not negative. The returned alpha is positive whenever doubling the guess gives at least the quoted volatility.", "quantifier": "all tau, F+shift>0, beta, rho, volvol, vol", "why_tests_cant": "Continuum; existence is an intermediate value argument.", "anchors": ["frm/pricing_engine/sabr.py: solve_alpha_from_sln_vol, calc_sln_vol_for_strike_from_sabr_params"]}
{"id": "C56", "title": "Forward volatility preserves total variance", "statement": "For times t1<t2 throughout, forward_volatility returns, elementwise over broadcast arrays, the non-negative f with sigma1^2 t1 + f^2 (t2-t1) = sigma2^2 t2, and raises ValueError exactly when some total variance falls; it composes over consecutive intervals. Times in the wrong order raise ValueError unless some pair is equal. With an equal pair, floats raise TypeError and time arrays of different lengths IndexError; otherwise the order of the other times is not checked and the equal pair gives +inf, NaN or ValueError according to the total variances (the docstring promises NaN). Arrays whose lengths do not broadcast raise ValueError.", "quantifier": "all arrays of times and volatilities", "why_tests_cant": "Continuum and unbounded lengths.", "anchors": ["frm/pricing_engine/volatility_generic.py: forward_volatility"]}
{"id": "C57", "title": "Flat-forward volatility interpolation hits both pillars and keeps total variance linear", "statement": "flat_forward_interp returns the pillar volatility at both pillars and total variance linear in time on the line through them, also outside [t1,t2] where the docstring promises the boundary values (NaN when the line is negative); equal pillar times keep total variance constant; ValueError exactly when t1>t2 or total variance falls in some row; python floats raise AttributeError although allowed by the signature.", "quantifier": "all rows of times and volatilities", "why_tests_cant": "Continuum.", "anchors": ["frm/pricing_engine/volatility_generic.py: flat_forward_interp"]}
{"id": "C58", "title": "GBM paths: closed form, positivity, restart, antithetic products, and several underlyings", "statement": "For one underlying simulate_gbm_path returns x[t,0,s] = initial price * exp(sum over the first t steps of (drift - vol^2/2) dt + vol sqrt(dt) z), so a positive price stays positive, and continuing from x[t] with the remaining steps gives the remaining path. With an even number of antithetic simulations the two paths of a pair multiply to a value free of random numbers. With two or more underlyings a single time step raises AssertionError, a number of simulations other than the number of underlyings raises ValueError, and otherwise simulation s of every underlying uses the price, drift and volatility of underlying s. Other lengths raise AssertionError.", "quantifier": "all step counts, drifts, vols, non-negative time steps and normals; all shapes named", "why_tests_cant": "A test runs a few random draws; the multi-underlying broadcasting error only shows when simulations and underlyings agree in number.", "anchors": ["frm/pricing_engine/geometric_brownian_motion.py:simulate_gbm_path", "frm/pricing_engine/monte_carlo_generic.py:generate_rand_nbs"]}
{"id": "C59", "title": "Antithetic variates: adjacent opposites for even counts, shifted pairs and a lost simulation for odd counts", "statement": "generate_rand_nbs succeeds exactly for a seed in [0, 2^32), at least one step, variable and simulation, steps*simulations <= 100 million, and two simulations with antithetic variates; otherwise AssertionError for a count below one and ValueError else. Without antithetic variates the array is the raw draw. With an even number 2m, columns 2k and 2k+1 are draw k and its negative, so every row sums to zero. With an odd number 2m+1 the array has only 2m columns, column 1 is draw m rather than minus draw 0, column 2k+3 is minus draw k, and the row sums to the last two draws.", "quantifier": "all integer arguments, all generators", "why_tests_cant": "Requires reasoning about all shapes and parities; the returned shape differs from the requested one only for odd counts.", "anchors": ["frm/pricing_engine/monte_carlo_generic.py:generate_rand_nbs", "frm/utils/settings.py:MAX_SIMULATIONS_PER_LOOP"]}
{"id": "C60", "title": "Correlating normals with the transposed Cholesky factor gives the wrong covariance", "statement": "normal_corr applied to n columns of uncorrelated unit normals has second moments L^T L instead of C = L L^T: they equal C exactly when C is diagonal. The sum of the variances is kept. For correlation rho the variances are 1+rho^2 and 1-rho^2 and the covariance rho*sqrt(1-rho^2). Three-dimensional input is transformed step by step in the same way, and a width other than n raises ValueError.", "quantifier": "all dimensions, all positive definite matrices, all samples with unit sample moments", "why_tests_cant": "The scalar-versus-vector test compares two functions sharing the error; statistical tests only see it for some rho.", "anchors": ["frm/pricing_engine/monte_carlo_generic.py:normal_corr"]}
{"id": "C61", "title": "Heston simulation: QE variance is admissible and moment matched, Euler variance may end negative", "statement": "With usual parameters the quadratic-exponential scheme returns finite positive spots and finite non-negative variances for all normals. The next variance is a(b+Z)^2 or a mass at zero with an exponential tail, in both cases with the conditional mean and variance of the square-root process; simulations with matching normal moments reproduce both exactly. The Euler schemes follow their recursion with shocks (z0 + rho z1) and sqrt(1-rho^2) z1, clamp every variance but the last, and for every parameter set can end negative. Another method name starting with 'euler' turns to NaN after a negative variance; any other name returns an array of zeros. kappa = 0 or vv = 0 raises ZeroDivisionError in the QE scheme; |rho| >= 1 fails in the factorisation for every method. Each QE step multiplies the spot by exp(mu dt - I/2 + rho (v' - v - kappa (theta dt - I))/vv + sqrt((1-rho^2) I) Z), I = dt (v + v')/2 being the variance integrated over the step by the trapezoidal rule.", "quantifier": "all parameters as stated, all random inputs, all step counts, all method strings", "why_tests_cant": "Universally quantified over random inputs and parameters.", "anchors": ["frm/pricing_engine/heston.py:heston_simulate_scalar", "frm/pricing_engine/heston.py:heston_simulate"]}
{"id": "C62", "title": "Cosine-method payoff coefficients are the exact cosine integrals", "statement": "For every truncation range [a, b] containing 0, the coefficients returned by calculate_Uk_european_options are 2/(b-a) times the integral over [a, b] of the call (put) payoff per unit of strike against cos(k pi (y-a)/(b-a)). The inner psi is the integral of the cosine between any limits; the inner chi, which lacks a factor exp(d), is the integral of exp(y) times the cosine exactly when d = 0 or the sine at d vanishes, which holds at both call sites.", "quantifier": "all k, all a <= 0 <= b, all limits c, d", "why_tests_cant": "Integrals over all ranges and all k; the missing factor is invisible at the limits in use.", "anchors": ["frm/pricing_engine/heston.py: calculate_Uk_european_options"]}
{"id": "C63", "title": "The 'Simpson' weights leave the last interval under-weighted", "statement": "get_simpson_weights(n) has n entries for even n >= 2 (an odd n gets the weights of n-1, anything below 4 gets two thirds). Applied to n samples the weights give Simpson's rule over all but the last interval plus only two thirds of the trapezium over the last one, so even a constant is not integrated exactly: the weights sum to n - 4/3, not n - 1.", "quantifier": "all n, all sampled functions", "why_tests_cant": "All n and all functions.", "anchors": ["frm/pricing_engine/heston.py: get_simpson_weights"]}
{"id": "C64", "title": "Hull-White bond options are Black prices, undiscounted without volatility; caplets and swaptions are never priced", "statement": "For mean reversion of at least 1e-8, calc_b vanishes at maturity, satisfies B' = aB - 1 and composes over intervals; below that, negative speeds included, it is the elapsed time, which satisfies the equation only at zero. price_zero_coupon_bond_option for positive volatility and 0 < T < S is the Black-76 price on P(0,S)/P(0,T) with variance the integral of (sigma(B(u,S)-B(u,T)))^2, so call minus put is P(0,S) - K P(0,T), prices lie strictly between intrinsic and P(0,S) or K P(0,T), and increase with volatility. Without volatility (sigma = 0, S = T or T = 0) it is the undiscounted intrinsic value, which is not the limit of the prices. S < T gives 0, zero mean reversion gives NaN, t0 <> 0 raises ValueError, several strikes for one expiry and maturity raise IndexError, otherwise arrays are priced elementwise. price_optionlet and price_swaption never return a price. The constructor fails with TypeError unless the smallest pillar is at time 0.", "quantifier": "all curves, parameters, strikes, array lengths", "why_tests_cant": "A continuum of inputs; the limit at zero volatility and the failure of every call are not finite facts.", "anchors": ["frm/pricing_engine/hw1f.py: calc_b, price_zero_coupon_bond_option, price_optionlet, price_swaption, __post_init__"]}
{"id": "C65", "title": "Texts the enums read: exact accepted spellings, and where is_valid and display names disagree with from_value", "statement": "from_value returns a member exactly for the spellings of its text (any case, blanks around it, spaces for underscores), of its day count synonyms, or of its frequency words; everything else raises ValueError. None gives the default member, or AttributeError for the enums without one and for DayCountBasis; numbers are read as days of the month only; digits-only text makes DayCountBasis.from_value raise AttributeError. is_valid agrees with from_value on all texts except that DayCountBasis.is_valid rejects the synonyms that from_value accepts. The display name of a member is read back as that member, except for ZeroCurveInterpMethod and the two modified roll conventions. Pay is -1, receive +1, buy +1, sell -1. Displayed names built from a member's name are in title case: the first letter of each run of letters is a capital, the others are small, everything else is kept.", "quantifier": "all strings, integers and members", "why_tests_cant": "All strings on the accepting and on the rejecting side.", "anchors": ["frm/enums/utils.py: DayCountBasis, PayRcv, BuySell, CompoundingFreq, PeriodFreq, RollConv, DayRoll, ZeroCurveInterpMethod", "frm/enums/helper.py: clean_enum_value, get_enum_member, is_valid_enum_value"]}
{"id": "C66", "title": "Monte-Carlo chunking covers every simulation once", "statement": "clewlow_strickland_1_factor_simulate succeeds exactly when segments, horizon and simulations are at least one, the steps do not exceed the limit of 100 million, the curve covers the grid and there are at most 2^32 loops. It returns T+1 rows and the requested number of columns; column n is path (n mod per) of loop (n / per) drawn with that loop as seed, where per is the largest loop size within the limit. The value is the interpolated forward times the exponential of an explicit weighted sum of the normals.", "quantifier": "all counts, horizons, curves positive on the grid, mean reversions, volatilities and normals", "why_tests_cant": "Chunking only starts above 100 million random numbers.", "anchors": ["frm/pricing_engine/clewlow_strickland_1_factor.py:clewlow_strickland_1_factor_simulate", "frm/pricing_engine/monte_carlo_generic.py:generate_rand_nbs"]}
{"id": "C67", "title": "move_col_after: directly after the reference only when moved forward", "statement": "On distinct columns move_col_after keeps every column and the order of the others. The moved column ends directly after the reference exactly if it stood behind the reference or the reference is the last column; otherwise it ends one column further. A column moved after itself changes places with the next one. An unknown label raises ValueError. Columns sharing a label multiply: n become n*n.", "quantifier": "all column lists and labels", "why_tests_cant": "All lists and positions.", "anchors": ["frm/utils/utilities.py: move_col_after"]}
{"id": "C68", "title": "Floating legs are worth only their dateless-coupon rows", "statement": "FloatTermLeg and FloatRFRLeg never fill their fixing column, so with a discount curve and an index curve the dirty PV is the PV of the notional payments of rows without a coupon date (the initial exchange) only: coupons and the final repayment drop out, for every spread override. Without the index curve valuation raises MarketDataNotAvailableError.", "quantifier": "all floating legs, curves, overrides, value dates", "why_tests_cant": "The loss happens by NaN propagation and NaN-skipping summation, for every leg; no single test states what the value is in general.", "anchors": ["frm/instruments/leg.py: FloatTermLeg.calc_coupon_payment, FloatRFRLeg.calc_coupon_payment, Leg.calc_dirty_pv"]}
{"id": "C69", "title": "target_solve_swap solves the leg, not the swap", "statement": "If target_solve_swap(target, 1) with an exact root finder returns a rate, leg 1 at that rate is worth the target, so the swap is worth the target plus leg 2 and equals the target only if leg 2 is worth zero; leg numbers other than 1 and 2 raise ValueError and change nothing. Only the chosen leg changes and leg 2 behaves as leg 1 of the swapped pair.", "quantifier": "all swaps with a fixed first leg, targets, exact root finders", "why_tests_cant": "Quantifies over all swaps and root finders.", "anchors": ["frm/instruments/swap.py: Swap.target_solve_swap"]}
{"id": "C70", "title": "A leg on a ZeroCurve is priced iff the curve covers every payment date", "statement": "calc_dirty_pv of a leg discounted with a ZeroCurve raises ValueError exactly when some notional or coupon payment date lies outside the days covered by the curve (in the past as well as beyond the last pillar); otherwise it returns a number. The extrapolation setting makes no difference.", "quantifier": "all curves, all fixed legs and floating legs with a forward curve, all payment dates, settings and rate overrides", "why_tests_cant": "The failure depends on the relation between every payment date of an arbitrary schedule and the curve range; tests use curves longer than the trade and dates after the curve date.", "anchors": ["frm/instruments/leg.py: Leg._discount_payments, Leg.calc_dirty_pv", "frm/term_structures/zero_curve.py: ZeroCurve.index_daily_data"]}
{"id": "C71", "title": "A curve quoted in years ends at the whole number of years below its last pillar", "statement": "When pillars are given by a years column, daily data ends on the first date at or after curve date + n calendar years whose year fraction is at least n, where n is the largest pillar truncated to an integer: the part of the curve between n and the last pillar cannot be looked up, and with all pillars below one year only the curve date remains.", "quantifier": "all years columns, all curve dates, all bases except 30E/360 ISDA, all interpolation methods", "why_tests_cant": "Depends on the fractional part of the last pillar, the basis and leap days for every curve date.", "anchors": ["frm/term_structures/zero_curve.py: ZeroCurve._setup_daily_df"]}
{"id": "C72", "title": "Constructing a ZeroCurve changes the caller's DataFrame", "statement": "Building a curve from tenors, dates or days adds columns to the DataFrame passed by the caller, so building any second curve from the same DataFrame raises ValueError; only frames quoted in years are left as they were. The added columns are exactly the dates, days and years of the pillars that the caller did not give.", "quantifier": "all frames, conventions, interpolation methods; all parameters of the second construction", "why_tests_cant": "Tests build each frame once; the claim is about every frame and every later use.", "anchors": ["frm/term_structures/zero_curve.py: ZeroCurve.__post_init__, ZeroCurve._process_pillar_df"]}
{"id": "C73", "title": "Fixing coverage check", "statement": "RFRFixings.get_coupon_rates raises ValueError exactly when some fixing falls in the window of the call and either none falls on or after the last day of the latest period, or all fall after the last day of some period; otherwise it returns. In particular a period without any fixing silently earns the rate 0, and fixings before every period are ignored rather than carried into the first days.", "quantifier": "all non-empty period lists, all fixing tables, all calculation methods", "why_tests_cant": "An exact characterisation of when data is rejected, over all tables.", "anchors": ["frm/term_structures/historical_swap_index_fixings.py: RFRFixings.get_coupon_rates"]}
{"id": "C74", "title": "Deposits quoted by tenor get their dates", "statement": "A deposit quoted by tenor starts on the curve date if it is overnight and on the settlement date (given, or the curve date moved by the delay in business days) otherwise; it matures on the first business day on or after its start moved by the tenor, and its period is the year fraction between the two. The helper succeeds if and only if all tenors are valid. The deposits can then be bootstrapped if and only if all are overnight, or one is overnight and settlement is on its maturity date; so two day settlement cannot be bootstrapped. Frames with dates but no tenors raise KeyError; without settlement date or delay AssertionError; frames with given effective dates cannot be bootstrapped.", "quantifier": "all frames, calendars with a business day, curve dates and delays", "why_tests_cant": "All frames and calendars.", "anchors": ["frm/term_structures/bootstrap_helpers.py: cash_rates_quote_helper, bootstrap_cash_rates"]}
{"id": "C75", "title": "Instantaneous forward rates are minus the derivative of the log discount factor", "statement": "On a spline-interpolated ZeroCurve, get_instantaneous_forward_rate(t) equals minus the derivative at t of ln of the discount factors the same curve returns for year lookups. This holds both when the spline is fitted to continuously compounded zero rates and when it is fitted to log discount factors. On a curve with linear interpolation of log discount factors the method returns None.", "quantifier": "all spline curves of either kind with discount factors at every year fraction, all t; splev(der=1) is assumed to return the derivative of the spline", "why_tests_cant": "A derivative identity over every spline and every time; the two interpolation methods reach it by different formulas, and tests at single points cannot show agreement.", "anchors": ["frm/term_structures/zero_curve.py: ZeroCurve.get_instantaneous_forward_rate", "frm/term_structures/zero_curve.py: ZeroCurve.get_discount_factors"]}
{"id": "C76", "title": "FX term structure dates come from the delivery date or the tenor, never from a rate-set date alone", "statement": "fx_term_structure_helper keeps rows that have a delivery date; for rows with neither date the rate-set date is the first business day on or after curve date plus tenor, and delivery is spot_offset business days after it. Rows come back sorted by delivery date. A row with a rate-set date but no delivery date, or an unrecognised tenor, makes the call fail; a missing tenor column raises KeyError and a missing tenor TypeError, even when all delivery dates are given.", "quantifier": "all tenors, dates, calendars and non-negative spot offsets", "why_tests_cant": "All combinations of given and missing dates over all calendars.", "anchors": ["frm/term_structures/fx_helpers.py: fx_term_structure_helper"]}
{"id": "C77", "title": "FX forward curve interpolation", "statement": "interp_fx_forward_curve_df returns the quoted forward at a quoted date, the straight line in days between the neighbouring quoted dates strictly between them, and outside the quoted range the nearest quote or a missing value depending on flat_extrapolation. Rows without a quote are skipped. The value for a date does not depend on the other requested dates, their order or repetition. A curve with a repeated date raises ValueError.", "quantifier": "all curves, all requested date lists", "why_tests_cant": "All curves and all date sets; interpolation runs on the union of both.", "anchors": ["frm/term_structures/fx_helpers.py: interp_fx_forward_curve_df"]}
{"id": "C78", "title": "Currency pair parsing and delta convention warnings", "statement": "validate_ccy_pair accepts two three-letter codes in any letter case with or without a slash and returns the lower case pair, the quote (domestic) and the base (foreign) currency; letters of any other length raise AssertionError. check_delta_convention flags premium adjusted conventions exactly for audusd, nzdeur, gbpusd and nzdusd, and regular conventions exactly for pairs containing usd other than audusd, gbpusd, nzdusd and their inverses and usdeur; so eurusd quoted with the market's regular delta is flagged.", "quantifier": "all strings", "why_tests_cant": "All pairs and spellings.", "anchors": ["frm/term_structures/fx_helpers.py: validate_ccy_pair", "frm/term_structures/fx_helpers.py: check_delta_convention"]}
{"id": "C79", "title": "Volatility quote column names are cleaned to one canonical name per meaning", "statement": "clean_vol_quotes_column_names renames every spelling of an n-delta call, put, risk reversal or butterfly (n from 1 to 49) and of the at-the-money delta neutral or forward quote to its canonical name and leaves every other column name unchanged. Cleaning twice changes nothing, and values stay with their column.", "quantifier": "all column name lists", "why_tests_cant": "All strings; the grammar of spellings is infinite in combination.", "anchors": ["frm/term_structures/fx_helpers.py: clean_vol_quotes_column_names"]}
{"id": "C80", "title": "Vectorised Black76 and Bachelier calls", "statement": "black76_price and bachelier_price accept arrays iff F and tau have the same length and all lengths are 1 or one common n, raise AssertionError otherwise, and return n prices (and greeks), each equal to the scalar call on the inputs broadcast to that position. With analytical_greeks they raise ValueError exactly when cp is the only argument of length n; with intrinsic_time_split they raise IndexError exactly when F has length 1 and n is not 1.", "quantifier": "all arrays of all lengths", "why_tests_cant": "Unbounded shapes and lengths.", "anchors": ["frm/pricing_engine/black76_bachelier.py: black76_price, bachelier_price"]}
{"id": "C81", "title": "Intrinsic and time value split", "statement": "Intrinsic plus time value is the price. Intrinsic is max(0, cp(F-K)) without the annuity factor, so the time value is positive when the annuity is at least 1, but for every annuity below 1 there are forwards and strikes with a negative time value. At expiry intrinsic is the price.", "quantifier": "all parameters", "why_tests_cant": "Continuum.", "anchors": ["frm/pricing_engine/black76_bachelier.py: black76_price, bachelier_price"]}
{"id": "C82", "title": "Implied volatility solvers", "statement": "A volatility returned by black76_solve_implied_vol or bachelier_solve_implied_vol either reproduces the target price sum within 0.001%, or is the report of the fallback minimiser, accepted on its success flag; in the latter case, if the minimiser reports a point it evaluated, the price is never within 0.001% of the target.", "quantifier": "all inputs, all adaptive behaviours of brentq and L-BFGS-B", "why_tests_cant": "Solver behaviour is external and unbounded.", "anchors": ["frm/pricing_engine/black76_bachelier.py: black76_solve_implied_vol, bachelier_solve_implied_vol"]}
{"id": "C83", "title": "Numerical greeks of Black76", "statement": "Without a lognormal shift the numerical delta and vega are central differences of the price; with a shift s they are central differences of the price of the option with shift 2s. bachelier_price ignores numerical_greeks. On arrays every numerical greek is that of the scalar call on the broadcast inputs; a single forward with an array of shifts is an AssertionError and an array of cp alone a ValueError, although both are priced.", "quantifier": "all parameters", "why_tests_cant": "Continuum; tests with zero shift pass.", "anchors": ["frm/pricing_engine/black76_bachelier.py: black76_price"]}
{"id": "C84", "title": "Options without remaining volatility", "statement": "With zero volatility or zero expiry, Black76 and Bachelier return annuity x intrinsic when F differs from K and NaN when F = K. With positive volatility and expiry Black76 is annuity x intrinsic when exactly one of the shifted forward and strike is zero and the other positive, and NaN when the shifted forward and strike have opposite signs or are both zero.", "quantifier": "all parameters", "why_tests_cant": "Continuum of inputs at a boundary.", "anchors": ["frm/pricing_engine/black76_bachelier.py: black76_price, bachelier_price"]}
{"id": "C85", "title": "Vectorised Garman-Kohlhagen calls", "statement": "garman_kohlhagen_price returns n prices iff the inputs pass the checks, all lengths broadcast to n, tau has full length n, and S0 or cp has full length n; every price and greek then equals the scalar call on the broadcast inputs. Failing checks raise AssertionError, lengths that do not broadcast ValueError, and a scalar tau with vector strikes (or vector tau with only scalar S0 and cp) IndexError. calc_numerical_greeks=True always raises KeyError.", "quantifier": "all arrays of all lengths", "why_tests_cant": "Unbounded shapes and lengths.", "anchors": ["frm/pricing_engine/garman_kohlhagen.py: garman_kohlhagen_price"]}
{"id": "C86", "title": "Garman-Kohlhagen intrinsic and time value", "statement": "Intrinsic value is the discounted payoff of the forward, intrinsic plus time value is the price, and the time value is strictly positive before expiry; at expiry the time value is zero.", "quantifier": "all parameters", "why_tests_cant": "Continuum.", "anchors": ["frm/pricing_engine/garman_kohlhagen.py: garman_kohlhagen_price"]}
{"id": "C87", "title": "Failure modes of the strike solver", "statement": "Invalid market data, deltas above 0.5 in size, unequal lengths or unknown conventions raise AssertionError. Under premium adjusted conventions a leading zero delta raises UnboundLocalError and a later zero delta silently repeats the strike of the quote before it; when the root finder raises, puts propagate the error and calls raise TypeError; when it does not converge ValueError is raised.", "quantifier": "all inputs, every root finder", "why_tests_cant": "Solver behaviour is external; lists are unbounded.", "anchors": ["frm/pricing_engine/garman_kohlhagen.py: garman_kohlhagen_solve_strike_from_delta"]}
{"id": "C88", "title": "Premium adjusted delta as a function of the strike", "statement": "The premium adjusted delta is below the regular delta. For puts it is strictly decreasing in the strike, attains every negative value exactly once, and the strike lies below the solver's upper search bound. For calls it rises to a single peak and falls after it; the solver's lower search bound is that peak for the forward implied by the rates, so strikes above it are unique, but with a different market forward the peak is elsewhere.", "quantifier": "all market data, strikes and deltas", "why_tests_cant": "Continuum; uniqueness and monotonicity are calculus statements.", "anchors": ["frm/pricing_engine/garman_kohlhagen.py: garman_kohlhagen_solve_strike_from_delta, garman_kohlhagen_price"]}
{"id": "C89", "title": "Garman-Kohlhagen implied volatility solver", "statement": "The solver returns newton's report unchecked; only when newton does not converge is the root_scalar report returned, ignoring its convergence flag, with inf when root_scalar raises ValueError. The fallback bracket [0.0001, 2] encloses the implied volatility exactly when it lies strictly inside. Invalid inputs raise AssertionError at the first evaluation.", "quantifier": "all inputs, all adaptive behaviours of newton and brentq", "why_tests_cant": "Solver behaviour is external and unbounded.", "anchors": ["frm/pricing_engine/garman_kohlhagen.py: garman_kohlhagen_solve_implied_vol"]}
{"id": "C90", "title": "Garman-Kohlhagen prices at volatilities that are not positive", "statement": "A negative volatility is accepted and prices minus the opposite option, hence a negative price; zero volatility gives the discounted intrinsic value, or NaN when the forward equals the strike.", "quantifier": "all parameters", "why_tests_cant": "Continuum.", "anchors": ["frm/pricing_engine/garman_kohlhagen.py: garman_kohlhagen_price"]}
{"id": "C91", "title": "SABR smile: Hagan's formula, continuous through the forward", "statement": "For positive shifted forward and strike, alpha and volvol not zero and |rho|<1, the volatility is Hagan's (2.17) away from the money, (2.18) at the forward, continuous in strike at the forward across the switch of formula, positive when alpha and the time correction are positive, unchanged by moving the shift into forward and strike, unchanged by a change of unit with alpha scaled by c^(1-beta), and for beta 0 symmetric under exchanging forward and strike with rho negated.", "quantifier": "all tau, F, K, shift, alpha, beta, rho, volvol in the domain", "why_tests_cant": "Continuum; continuity is a limit statement.", "anchors": ["frm/pricing_engine/sabr.py: calc_sln_vol_for_strike_from_sabr_params"]}
{"id": "C92", "title": "SABR smile at degenerate parameters", "statement": "Away from the money a volvol or alpha of zero gives NaN (not the limit of the formula); rho=1 gives 0 or NaN according to z, rho=-1 gives 0 for z<=-1; a shifted forward and strike of opposite sign give NaN, while both negative are accepted and priced as if both positive. A shifted forward or strike of zero always gives NaN.", "quantifier": "all other parameters", "why_tests_cant": "Continuum.", "anchors": ["frm/pricing_engine/sabr.py: calc_sln_vol_for_strike_from_sabr_params"]}
{"id": "C93", "title": "SABR volatilities of arrays are elementwise", "statement": "With smile parameters of one length n and n or one strikes (or one smile and many strikes) the result has the larger length and element i is the volatility of element i alone; AssertionError is raised exactly when the smile arrays differ in length, when several strikes match neither, or when the shift is not a single number. An empty array of strikes gives an empty result for a single smile and ValueError for several.", "quantifier": "all arrays", "why_tests_cant": "Unbounded lengths.", "anchors": ["frm/pricing_engine/sabr.py: calc_sln_vol_for_strike_from_sabr_params"]}
{"id": "C94", "title": "A SABR fit reprices the at-the-money quote", "statement": "Whatever the optimiser does, a successful fit_sabr_params_to_sln_smile returns parameters whose volatility at the forward is exactly the quote of the only strike close to the forward, with beta the override if given. Without exactly one such strike it raises ValueError; with the default ln_shift=None it never succeeds (TypeError). Strikes and volatilities of different lengths raise IndexError. With a shift, every other failure, in particular a search that never reports success, is a ValueError.", "quantifier": "all smiles, all optimiser behaviours", "why_tests_cant": "Quantifies over every behaviour of the optimiser.", "anchors": ["frm/pricing_engine/sabr.py: fit_sabr_params_to_sln_smile"]}
{"id": "C95", "title": "Daily FX volatility surface", "statement": "The daily smile has one row for each day from the first to the last pillar expiry, shows the pillar volatilities on pillar dates (NaN on the curve date itself), and in between has total variance linear in the year fraction between the neighbouring pillars. It is refused with ValueError exactly when total variance falls between consecutive pillars with a day in between; a fall between pillars on adjacent days goes unnoticed. Pillars out of order are refused.", "quantifier": "all pillar sets, curve dates and day counts ACT/360, ACT/365, ACT/366, ACT/ACT", "why_tests_cant": "Unbounded pillars and dates; continuum of volatilities.", "anchors": ["frm/term_structures/fx_volatility_surface.py: FXVolatilitySurface._setup_vol_smile_daily_df", "frm/pricing_engine/volatility_generic.py: flat_forward_interp"]}
{"id": "C96", "title": "Clewlow-Strickland paths start on, and scale with, the forward curve", "statement": "Without volatility every simulated spot equals the interpolated forward. With volatility, spot divided by forward does not depend on the forward curve, is positive and is one at time zero.", "quantifier": "all positive curves, parameters, normals, times and simulations", "why_tests_cant": "Relates two runs with different curves for all random inputs.", "anchors": ["frm/pricing_engine/clewlow_strickland_1_factor.py:clewlow_strickland_1_factor_simulate"]}
{"id": "C97", "title": "Vectorised and scalar Heston simulation agree", "statement": "heston_simulate and heston_simulate_scalar raise the same exceptions, and column s of the vectorised result equals the scalar result for the random numbers of simulation s, for every method name and every parameter set, including the cases with infinities and NaN.", "quantifier": "all parameters, methods, shapes and random numbers", "why_tests_cant": "The repository tests one parameter set and seed for one method.", "anchors": ["frm/pricing_engine/heston.py:heston_simulate", "frm/pricing_engine/heston.py:heston_simulate_scalar"]}
{"id": "C98", "title": "Cosine prices are discounted integrals of the payoff against a unit-mass series", "statement": "For regular parameters and a truncation range containing 0, heston_cosine_price_vanilla_european returns for a put (and, without parity, for a call) strike times exp(-r tau) times the integral over the range of the payoff against the N-term cosine series built from the characteristic function; via parity a call is that put plus S0 exp(-q tau) - K exp(-r tau); a cp other than 1 and -1 gives NaN. The series integrates to one, so whenever it is nowhere negative puts lie between 0 and K exp(-r tau). Because the range ignores spot and strike, a put price per unit of strike repeats when the strike grows by exp(2(b-a)). Without parity a request lacking calls or lacking puts fails with UnboundLocalError; kappa = 0 raises ZeroDivisionError and unequal lengths AssertionError.", "quantifier": "all regular parameters, spots, strike lists, numbers of terms and L", "why_tests_cant": "Identities of integrals over all parameters and strikes.", "anchors": ["frm/pricing_engine/heston.py: heston_cosine_price_vanilla_european", "frm/pricing_engine/cosine_method_generic.py: get_cos_truncation_range"]}
{"id": "C99", "title": "The three Heston characteristic functions are one function", "statement": "chf_heston_albrecher2007 equals exp(i u log S0) times chf_heston_fang2008 at every complex argument (both defined or both not). The function inside the 1993 formula for the second probability equals chf_heston_albrecher2007, the one for the first probability is the same function at u - i divided by the forward, and a market price of volatility risk only shifts the mean reversion speed and rescales the long-run variance.", "quantifier": "all parameters with var0 >= 0, all complex arguments", "why_tests_cant": "Agreement at sample points does not show agreement on the complex plane and all parameters.", "anchors": ["frm/pricing_engine/heston.py: chf_heston_albrecher2007, chf_heston_fang2008, heston_1993_vanilla_european_integral"]}
{"id": "C100", "title": "The Heston characteristic function is normalised, forward-consistent, bounded and conjugate symmetric", "statement": "At 0 the function is 1 when kappa > 0 and vv is not 0 and not finite otherwise; at -i it is the forward S0 exp((r-q) tau) exactly when kappa > rho*vv (vv not 0) and not finite otherwise. For kappa, vv > 0, |rho| <= 1, rho*vv <= 2 kappa it is finite at every real argument, its modulus is at most 1, and its value at -u is the conjugate of that at u; on the strip of complex arguments where the variance stays mean reverting it is finite and conjugate symmetric too.", "quantifier": "all parameters, all arguments of the strip", "why_tests_cant": "Continuum of arguments and parameters; branch cuts of the complex logarithm.", "anchors": ["frm/pricing_engine/heston.py: chf_heston_fang2008, chf_heston_albrecher2007"]}
{"id": "C101", "title": "The characteristic function solves Heston's Riccati equations", "statement": "Heston's equations for A and B (with zero initial values) have exactly one solution, and the coded function of maturity is exp(i u (r-q) t + A(t) + var0 B(t)) for that solution at every maturity: in particular the principal logarithm never crosses its branch cut.", "quantifier": "all parameters and complex arguments of the strip, all maturities t >= 0", "why_tests_cant": "A statement about derivatives in maturity for a continuum of parameters; branch-cut errors appear only at particular maturities.", "anchors": ["frm/pricing_engine/heston.py: chf_heston_fang2008, chf_heston_albrecher2007"]}
{"id": "C102", "title": "The Lewis-Lipton integrand is wrong unless the correlation is zero", "statement": "heston_lipton_vanilla_european_integral equals the Lewis-Lipton integrand built from the characteristic function for all spots, strikes and initial variances if and only if rho = 0 or the integration variable equals kappa: the code has kappa where the formula has the integration variable.", "quantifier": "all parameters with kappa, vv > 0, |rho| <= 1, rho*vv <= 2 kappa, tau > 0, all v > 0", "why_tests_cant": "Tests with small rho*vv stay within tolerance; the claim is an equivalence over all parameters.", "anchors": ["frm/pricing_engine/heston.py: heston_lipton_vanilla_european_integral"]}
{"id": "C103", "title": "Heston integral prices: parity, dispatch and the transform price", "statement": "Whatever the quadrature returns, the 1993 and Lipton prices satisfy put-call parity exactly, and Lipton prices everything that is not a call as a put. The 1993 price of a call is S0 e^{-q tau} (1/2 + I1/pi) - K e^{-r tau} (1/2 + I2/pi), where I1 and I2 are what the quadrature returns for Im(e^{-i phi ln K} f_j(phi)) / phi, an integrand without a value at phi = 0. Carr-Madan rejects cp other than 1 and -1 with ValueError and an integration method other than 0 and 1 with UnboundLocalError. At a strike on the logarithmic grid the FFT price is the weighted sum of the very integrand that the quadrature version integrates, at the points 0, 1/4, ..., and that integrand is finite when the variance is mean reverting under the damped measure. Unknown method names are rejected, and the market price of volatility risk lambda is ignored by every method but heston_1993, where it acts as replacing kappa by kappa + lambda and theta by kappa theta / (kappa + lambda).", "quantifier": "all quadratures, parameters, strikes and method names", "why_tests_cant": "Quantifies over the quadrature and all strikes and parameters.", "anchors": ["frm/pricing_engine/heston.py: heston1993_price_vanilla_european, heston_carr_madan_price_vanilla_european, heston_lipton_price_vanilla_european, heston_price_vanilla_european"]}
{"id": "C104", "title": "The Heston truncation range is centred at the mean but uses too small a variance", "statement": "get_cos_truncation_range for heston is centred at the exact mean of the log return, given by the moment equations of the model, while its c2 is the exact variance minus vv^2 theta (1 - exp(-kappa tau)) / (4 kappa^3); hence for positive kappa, theta, tau, L and vv <> 0 with c2 >= 0 the range is strictly narrower than mean -+ L standard deviations. For the model named geomentric_brownion_motion the range is mu tau -+ L |sigma| sqrt(tau); every other model name fails with UnboundLocalError. A dictionary without one of Heston's seven parameters is a KeyError, a sequence in its place a TypeError.", "quantifier": "all parameters, L and model names", "why_tests_cant": "Compares with the solution of a system of differential equations for all parameters.", "anchors": ["frm/pricing_engine/cosine_method_generic.py: get_cos_truncation_range"]}
{"id": "C105", "title": "cos_method returns left Riemann sums that overshoot the distribution function", "statement": "For dt > 0, a + dt <= b and a <= p <= b (AssertionError otherwise), cos_method evaluates the (N+1)-term cosine density on a grid that starts at a, has steps at most dt, contains p, and ends in [b, b+dt); it raises ValueError exactly when the left Riemann sum over all cells, including one of width dt after the last point, is below Phi(5), and otherwise the reported CDF at each point is the left sum including the cell after that point. For the uniform law (N = 0, cf(0) = 1) it is always accepted, the reported CDF at p exceeds (p-a)/(b-a), above 1 at p = b, and the reported integral is at least 1 + dt/(b-a).", "quantifier": "all characteristic functions, points, steps, bounds and N", "why_tests_cant": "Quantifies over arbitrary functions, grids and real bounds.", "anchors": ["frm/pricing_engine/cosine_method_generic.py: cos_method"]}
{"id": "C106", "title": "Jamshidian decomposition replicates the swaption payoff in every state", "statement": "If the root finder returns a root, the strikes of jamshidian_decomposition are bond prices at one critical rate and price the fixed leg at one. For non-negative coupons, the payoff of a payer or receiver swaption equals the sum of payoffs of options on the single payments with these strikes, whatever the short rate at expiry, the integrator and the theta spline. The critical rate is unique unless expiry is 0, when the objective does not depend on it. Lengths that differ, times that do not increase, and a notional before the second to last coupon raise ValueError; fewer than two coupons raise IndexError; errors of the root finder are passed on.", "quantifier": "all schedules, rates, model parameters and short rates", "why_tests_cant": "The identity is for every state of the short rate and every schedule.", "anchors": ["frm/pricing_engine/hw1f.py: jamshidian_decomposition, calc_discount_factor_by_solving_ode_1"]}
{"id": "C107", "title": "The ODE discount factors do not fit the zero curve", "statement": "With exact integration, calc_discount_factor_by_solving_ode_1 is the Hull-White bond price of the flat curve at r0; from time 0 it is exp(-r0 T) whatever the zero curve, so it recovers the curve only if that is flat. calc_discount_factor_by_solving_ode_2 from time 0 recovers the curve exactly when the instantaneous forward rate at 0 equals r0. On the flat curve both agree for all times and short rates. t2 <= t1, or t1 <> 0 without a short rate, raise AssertionError; ode_1 before setup_theta raises AttributeError; zero mean reversion raises ZeroDivisionError in get_thetas and ode_2.", "quantifier": "all curves, parameters, times, short rates", "why_tests_cant": "Equality of functions of continuous arguments, and for all curves.", "anchors": ["frm/pricing_engine/hw1f.py: get_thetas, setup_theta, calc_discount_factor_by_solving_ode_1, calc_discount_factor_by_solving_ode_2"]}
{"id": "C108", "title": "Hull-White simulation: average paths, variance and reported curves", "statement": "Every simulated rate is r0 plus a decayed sum of drifts and shocks of the scheme. With an even number of antithetic simulations the average rate is the path without shocks. The exact scheme has the exact variance of the short rate at every grid point but, when sigma <> 0, an average strictly below the exact mean. Without volatility every rate is r0 and discounts are exp(-r0 t). Discount factors compound the trapezoid of the rates; averages are averages of discount factors; zero rates reprice them, are NaN at time 0, and the reported average zero rate is at most the mean of the simulated zero rates. An odd number of antithetic simulations raises ValueError for the known methods; an unknown method is accepted and gives rate 0 after the first point; zero mean reversion raises ZeroDivisionError.", "quantifier": "all seeds, generators, step and simulation counts, parameters", "why_tests_cant": "All random streams and all grid sizes.", "anchors": ["frm/pricing_engine/hw1f.py: simulate"]}
{"id": "C109", "title": "State variables of hw1f2: exact moments, a drift integral right only from time 0, and bond prices that agree with hw1f", "statement": "y_integral is the integral of vol^2 exp(2ku); ex_integral is the integral of exp(ks) y(s) from t0 exactly when t0 = 0 or y(t0) = 0. On every increasing grid starting at 0 the state is vol^2/(2k^2)(1-exp(-kt))^2 plus a linear combination of the random numbers whose squared weights add up to vol^2/(2k)(1-exp(-2kt)). Bond prices from the state equal calc_discount_factor_by_solving_ode_2 at the short rate f(0,t) + x and reproduce the curve at time 0.", "quantifier": "all grids, parameters, random numbers", "why_tests_cant": "All grids and a continuum of parameters.", "anchors": ["frm/pricing_engine/hw1f2.py: y_integral, ex_integral, variance_int, conditional moments, simulation loop, p_t_tau", "frm/pricing_engine/hw1f.py: calc_discount_factor_by_solving_ode_2"]}
{"id": "C110", "title": "Cleaning an input table keeps exactly the non-blank rows and is idempotent", "statement": "clean_input_dataframe keeps, in order, exactly the rows with a value outside internal_id, strips labels, lowers texts and puts missing errors and warnings columns first and second, filled with empty text. Without internal_id the row index becomes the id, but a user column named index is renamed to internal_id instead (the index is then level_0; with both names it raises ValueError). Cleaning twice equals cleaning once. A label such as ' internal_id ' is not recognised and yields two columns of that name.", "quantifier": "all tables", "why_tests_cant": "All labels, cells and row patterns; idempotence for every table.", "anchors": ["frm/utils/utilities.py: clean_input_dataframe"]}
{"id": "C111", "title": "Errors and warnings return to the input row they belong to", "statement": "copy_errors_and_warnings_to_input never fails; ids stay; every input row gets the message of the first processed row of its id if any processed row of the id has a message, and keeps its own otherwise. With unique ids non-empty messages arrive and old messages survive. With repeated ids a message behind an empty one is lost and the input's message is erased.", "quantifier": "all processed and input tables", "why_tests_cant": "All combinations of repeated and missing ids.", "anchors": ["frm/utils/utilities.py: copy_errors_and_warnings_to_input"]}
{"id": "C112", "title": "Option prices are expected payoffs", "statement": "The Black76, Bachelier and Garman-Kohlhagen prices and the Hull-White bond option price equal the discount factor (or annuity) times the expectation, over one standard normal number, of the payoff of the terminal forward: (shifted) lognormal with mean the forward and log-variance vol^2 tau, normal with variance vol^2 tau, or for bonds log-variance the integral of the squared bond volatility.", "quantifier": "all forwards, strikes, volatilities, expiries, shifts, rates, calls and puts with positive arguments", "why_tests_cant": "The expectation is an improper integral; a simulation only approximates it.", "anchors": ["frm/pricing_engine/black76_bachelier.py: black76_price, bachelier_price", "frm/pricing_engine/garman_kohlhagen.py: garman_kohlhagen_price", "frm/pricing_engine/hw1f.py: price_zero_coupon_bond_option"]}
{"id": "C113", "title": "Geometric Brownian motion paths are consistent with the pricers", "statement": "The expectation over independent standard normal numbers of a price simulated by simulate_gbm_path is the initial price times exp of the sum of drift x dt, its second moment is that of a lognormal with variance the sum of vol^2 dt, and the expected payoff of a European option on the simulated price is exactly the Black76 price at the simulated forward and root-mean-square volatility, in particular the discounted payoff is the Garman-Kohlhagen price.", "quantifier": "all drift, volatility and step term structures, all numbers of steps, all strikes", "why_tests_cant": "Sampling error hides bias; arbitrary numbers of steps.", "anchors": ["frm/pricing_engine/geometric_brownian_motion.py: simulate_gbm_path", "frm/pricing_engine/garman_kohlhagen.py: garman_kohlhagen_price", "frm/pricing_engine/black76_bachelier.py: black76_price"]}
{"id": "C114", "title": "Bias of the simulated Clewlow-Strickland spot", "statement": "The expected simulated spot is the forward times exp of a closed form bias: no bias without mean reversion, without volatility or after one step, otherwise from the second step on the expected spot exceeds the forward for positive mean reversion (alpha dt at most 1) and falls short of it for negative mean reversion.", "quantifier": "all curves, mean reversions, volatilities, segment sizes, horizons, chunk sizes", "why_tests_cant": "The bias is smaller than sampling error; arbitrary numbers of steps.", "anchors": ["frm/pricing_engine/clewlow_strickland_1_factor.py: clewlow_strickland_1_factor_simulate"]}
{"id": "C115", "title": "Expected short rates and discount factors of the Hull-White simulation", "statement": "For each scheme the expectation and variance of the simulated short rate and the expectation of the simulated (trapezoidal) discount factor over independent standard normal numbers have the stated closed forms; the expected first discount factor of the Euler and rk4 schemes exceeds exp(-r0 h) by the factor exp(sigma^2 h^3 / 8).", "quantifier": "all parameters, schemes, steps, simulation counts", "why_tests_cant": "Sampling error hides bias; arbitrary numbers of steps.", "anchors": ["frm/pricing_engine/hw1f.py: HullWhite1Factor.simulate"]}
{"id": "C116", "title": "Expectations of simulated Heston paths", "statement": "At every step the quadratic exponential scheme's variance has exactly the mean and variance of the square root process; its expected spot is the forward when rho = 0, and after one step in general the forward times a closed form factor that is not 1 for all sound parameters (no martingale correction). Both Euler schemes have expected spot S0 (1 + mu dt)^t; the first step's spot and variance increments have variances S0^2 v0 (1 + rho^2) dt and vv^2 v0 (1 - rho^2) dt and covariance S0 vv v0 rho sqrt(1 - rho^2) dt instead of S0^2 v0 dt, vv^2 v0 dt and S0 vv v0 rho dt.", "quantifier": "all parameters, numbers of steps, both variance branches, both Euler variants", "why_tests_cant": "Sampling error hides bias; expectations are integrals.", "anchors": ["frm/pricing_engine/heston.py: heston_simulate_scalar"]}
{"id": "C117", "title": "Surface queries are independent of history and elementwise", "statement": "interp_vol_surface and price_vanilla_european give the same outcome whatever calls, successful or raising, were made on the surface object before (the cached daily smile functions are invisible). A vector query succeeds exactly when the lengths agree and every one-element query succeeds, and row i is the answer for element i, taken from the daily row of its expiry; prices are Garman-Kohlhagen prices of each row at its volatility and forward. Unequal lengths raise AssertionError, an expiry without a daily row raises.", "quantifier": "all surfaces, call histories, expiry/strike/type vectors, splines, solvers", "why_tests_cant": "Arbitrary sequences of calls sharing mutable state.", "anchors": ["frm/term_structures/fx_volatility_surface.py: FXVolatilitySurface.interp_vol_surface, price_vanilla_european, _solve_vol_daily_smile_func"]}
{"id": "C118", "title": "Spline smiles reproduce quotes and satisfy parity", "statement": "With splines that pass through their points, a spline surface returns at the strike of quote i of any day the day's volatility of quote i; for regular deltas there is a positive strike at which it returns the quoted volatility and whose delta under that volatility is exactly the quoted delta (call and put deltas one half at the at-the-money quote), and for premium adjusted deltas the delta is within the solver's tolerance. The volatility does not depend on the option type, so call and put prices satisfy put-call parity on the day's forward. Fewer than 3 quotes (4 for the cubic spline) raise ValueError; the spline degree used is min(3, quotes - 1).", "quantifier": "all spline surfaces, days, strikes, types, histories", "why_tests_cant": "Composition of strike solving, interpolation and pricing over reals.", "anchors": ["frm/term_structures/fx_volatility_surface.py: FXVolatilitySurface._solve_vol_daily_smile_func, interp_vol_surface, price_vanilla_european"]}
{"id": "C119", "title": "What the Heston calibration reports", "statement": "A calibration that returns parameters reports var0 = the middle quote squared, kappa = 1.5, lambda = 0, admissible vv, theta, rho at which the minimiser stopped, for every quote the implied volatility of the reported model's own price (-1 for a negative price), and as SSE the sum of squared differences between quotes and those volatilities. The minimiser's success flag is ignored; the search starts at (2 v, 2 v^2, 0); an end point outside the admissible region never yields a report (TypeError); inputs outside the documented domain raise ValueError. Pricing all strikes at once with the cosine method equals pricing them one by one. A quote that is not a finite number is an AssertionError.", "quantifier": "all inputs, all minimiser strategies, solvers and quadratures", "why_tests_cant": "Quantifies over what an external optimiser may do.", "anchors": ["frm/pricing_engine/heston.py: heston_calibrate_vanilla_smile"]}
{"id": "C120", "title": "What Heston surface queries return", "statement": "A Heston surface that answers a query prices with the rate implied by the day's forward, a fit with SSE < 0.001, and returns the solver's implied volatility of that model's price. Every quote of the day is then fitted within 0.032. With an eps-accurate volatility solver the surface price is within eps of the calibrated model's price. For regular deltas the calibration strikes are the strike pillars' strikes; at a calibration strike the returned volatility is within 0.032 of the quote.", "quantifier": "all Heston surfaces, methods, days, strikes, types, histories", "why_tests_cant": "Composition of calibration, pricing and root finding; all inputs.", "anchors": ["frm/term_structures/fx_volatility_surface.py: FXVolatilitySurface._solve_vol_daily_smile_func, interp_vol_surface, price_vanilla_european", "frm/pricing_engine/heston.py: heston_calibrate_vanilla_smile"]}
{"id": "C121", "title": "Surface construction", "statement": "From sorted pillars with non-negative volatilities and non-decreasing total variance, the daily frame has exactly one row per calendar day from the first to the last pillar, each with the market data of its own date and the delta convention of the next pillar on or after it; pillar days carry the quoted volatilities, and the strikes reported for a pillar are those of the strike solver at that row. On a spline surface, querying a pillar expiry at a reported strike returns the quoted volatility.", "quantifier": "all pillars, day count bases ACT/360, ACT/365 and alike, market functions, histories", "why_tests_cant": "Arbitrary pillar sets; end-to-end composition.", "anchors": ["frm/term_structures/fx_volatility_surface.py: FXVolatilitySurface.__post_init__, _setup_vol_smile_daily_df, _setup_strike_pillar"]}
{"id": "C122", "title": "Optionlet construction and quote forwards", "statement": "Optionlet cannot be constructed: with neither settlement date nor delay it raises ValueError, and with valid quotes it raises AttributeError at self.cal. Of the steps that follow in the source: with sorted quotes every period gets the number of the first quote it terminates under, so the periods of quote q and earlier ones are exactly those that end by its termination date; periods after all quotes get number 0. The forward of a quote is the unique strike at which its cap has par value, lies between the forwards of its periods for positive annuities, and is NaN without periods.", "quantifier": "all settlement inputs, quote dates, schedules, forwards and annuities", "why_tests_cant": "Arbitrary schedules and quote sets; uniqueness of the par strike.", "anchors": ["frm/term_structures/optionlet.py: Optionlet.__post_init__"]}
{"id": "C123", "title": "Cap and floor quotes", "statement": "For periods covered by sorted quotes, a quote column with offset o has strike F + o, is a cap exactly when o > 0, and its price is the sum of the Black-76 values at the quoted volatility of the periods that end by the termination date. Cap minus floor is the annuity weighted forward minus strike, zero exactly at the quote forward. With an honest minimiser the normal volatility of the at-the-money column reprices it within the solver tolerance; a minimiser that claims success is not checked. A period after every quote makes the pricing of the earlier quotes raise IndexError.", "quantifier": "all quotes, schedules, offsets, volatilities, shifts, minimisers", "why_tests_cant": "Sums over arbitrary schedules, arbitrary minimiser behaviour.", "anchors": ["frm/term_structures/optionlet.py: Optionlet.__post_init__"]}
{"id": "C124", "title": "Bootstrap of at-the-money normal volatilities", "statement": "After a successful calibration all periods of the first quote carry its normal volatility. For a later quote, with an honest minimiser, the at-the-money cap price less the SABR value of the earlier periods is matched by the Bachelier values of its own periods, with volatilities on the line from the smile volatility at the quote strike of the last earlier period to the solved one. The stored volatilities lie on the line from the stored at-the-money volatility of that period instead, so they agree with the repriced line exactly where the two starting values agree or at the pillar. A later quote needs at least two earlier periods: with none it raises KeyError, with one TypeError. Every stored lognormal volatility gives the same at-the-money price as the stored normal one, to solver tolerance.", "quantifier": "all quotes, schedules, shifts, solvers", "why_tests_cant": "Induction over quotes; existence of counterexamples depends on real-valued solver output.", "anchors": ["frm/term_structures/optionlet.py: Optionlet._solve_vol_n_atm"]}
{"id": "C125", "title": "Bootstrap of SABR parameters", "statement": "A successful calibration keeps the rows and numbers of the schedule and fills every parameter. beta, rho and volvol are constant over the first quote's periods and linear in expiry between the pillars of successive quotes, and stay within the bounds of the search (and of the fixed betas). With an exact cubic solver the smile of each period returns its at-the-money volatility. The objective that the search returned a point of is the mean square relative error between quote prices less the SABR value of the earlier periods and the SABR value of the quote's own periods, evaluated on the final table; it is zero exactly when the smiles reprice every column of the quote.", "quantifier": "all quotes, schedules, shifts, searches", "why_tests_cant": "Fold over quotes that mutates a table; equivalence between zero error and repricing.", "anchors": ["frm/term_structures/optionlet.py: Optionlet._solve_sabr_params"]}
{"id": "C126", "title": "Volatility term structure on a schedule", "statement": "For a filled table in order of start dates, every schedule row gets the beta, rho, volvol and at-the-money normal volatility of the table at its own start date: the table value on a table date, the straight line in calendar days between two table dates, the last value after the last date. The lognormal at-the-money volatility gives the same price as the normal one and, with an exact cubic solver, is the smile volatility at the forward. A start before the first table date and repeated start dates raise ValueError, and nothing else is raised.", "quantifier": "all tables, schedules, shifts", "why_tests_cant": "Unbounded date positions and tables.", "anchors": ["frm/term_structures/optionlet.py: Optionlet.interpolate_sabr_term_structure"]}
{"id": "C127", "title": "Optionlet prices", "statement": "Pricing accepts exactly a number with an int of +-1, or arrays of the schedule's length with entries +-1; everything else raises AssertionError. Without volatility, and with both a lognormal and a normal one, it raises KeyError. A list of flat volatilities must have one entry or one per row, else ValueError. Each row is priced at its own strike, type and volatility with the annuity of its own period: Black-76 for lognormal volatilities and for the term structure (whose volatility is the row's smile at the strike), Bachelier for normal ones; forward price, intrinsic and time value are the matching split. Caplet minus floorlet is annuity times forward minus strike. Equivalent flat volatilities reprice the total within tolerance unless they come from a fallback minimiser that claims success.", "quantifier": "all tables, schedules, strikes, types, volatilities, solvers", "why_tests_cant": "Unbounded vectors and solver behaviours.", "anchors": ["frm/term_structures/optionlet.py: Optionlet._validate_strike_and_option_type, _price_optionlets, price_per_term_structure, price_per_flat_vol_sln, price_per_flat_vol_n"]}
{"id": "C128", "title": "Which columns are volatility quotes", "statement": "A column is a basis point quote iff somewhere a digit is followed by at most one blank and 'bp' in any case, a percentage quote iff a digit is followed by at most one blank and '%', an at-the-money quote iff it contains a or at, t or the and m with at most one space or dash between them (so 'treatment' is one). There must be exactly one distinct at-the-money column, else AssertionError; a marked column whose text without the mark is no number raises ValueError, and nothing else is raised. The documented labels such as 'ATM+50bps' are always refused: AssertionError beside another at-the-money column, ValueError otherwise. A capital B in a basis point column is refused although the search ignores case.", "quantifier": "all column names and lists of columns", "why_tests_cant": "All texts; the regular expressions accept infinitely many.", "anchors": ["frm/term_structures/interest_rate_option_helpers.py: standardise_atmf_quote_col_names, standardise_relative_quote_col_names, standardise_absolute_quote_col_names"]}
{"id": "C129", "title": "Offsets and strikes read from column names", "statement": "A column written as a decimal number of basis points with at most four decimals (or per cent with at most six), with an optional sign and spaces, has as offset or strike the double nearest to the exact value: the division and the rounding to eight places leave no error beyond that of storing the number. The same rate quoted in basis points and per cent has the same offset.", "quantifier": "all decimals up to 10^11 basis points or 10^9 per cent", "why_tests_cant": "Infinitely many texts; double rounding errors show up at isolated inputs only.", "anchors": ["frm/term_structures/interest_rate_option_helpers.py: standardise_relative_quote_col_names, standardise_absolute_quote_col_names"]}
{"id": "C130", "title": "New names of quote columns and their dictionaries", "statement": "Integer quotes are named by their number and 'bps', but by the next number towards zero when the product with the unit lands short of it: '3bps' becomes '2bps'. Other quotes are named by str of the number. Percentage quotes are named with the number in per cent and 'bps' all the same. Two basis point quotes share a name only if they are equal or neighbouring integers. The renaming dictionary gives every quote column its own name and the at-the-money column 'atmf'; the offsets have each name once in order of first appearance ('atmf' first, with 0), with the offset of the last column of that name, so the offset of an earlier column of the same name is lost.", "quantifier": "all lists of columns, all quotes up to 10^7 in their unit", "why_tests_cant": "Truncation hits isolated quotes; collisions depend on the whole list.", "anchors": ["frm/term_structures/interest_rate_option_helpers.py: standardise_relative_quote_col_names, standardise_absolute_quote_col_names"]}
{"id": "C131", "title": "Settlement date of cap/floor quotes", "statement": "Without a settlement date and delay ValueError is raised; with a delay only, settlement is that many business days after the first business day on or after the curve date (before it for a negative delay); a date alone must not be before the curve date (AssertionError); with both, the date is taken without any check. process_capfloor_quotes never returns: if everything before succeeds its call of make_schedule raises TypeError.", "quantifier": "all dates, delays, calendars", "why_tests_cant": "All calendars and delays.", "anchors": ["frm/term_structures/interest_rate_option_helpers.py: settlement_date_helper, process_capfloor_quotes"]}
{"id": "C132", "title": "The theta grid of the Hull-White engine", "statement": "setup_theta lays num equally spaced points into every interval between neighbouring curve pillars, starting at the left pillar: there are (number of pillars - 1) * num points and the j-th point of interval i is a + (b - a) j / num. For increasing pillars the points are strictly increasing, contain every pillar except the last and lie strictly before the last. A negative num or fewer than two pillars is refused with a ValueError. The stored spline is drawn through the values alpha r0 + sigma^2 / (2 alpha) (1 - exp(-2 alpha t)) at these points, or at the points of an explicit years_grid, which takes precedence over num; dt and num of the object do not change.", "quantifier": "for all pillar years, all num, all r0, alpha, sigma, and all results of the spline constructor", "why_tests_cant": "Positions and ordering are claimed for every number of pillars and every num.", "anchors": ["frm/pricing_engine/hw1f.py:HullWhite1Factor.setup_theta", "frm/pricing_engine/hw1f.py:HullWhite1Factor.get_thetas"]}
{"id": "C133", "title": "fit_theta cannot succeed on a zero curve", "statement": "Every ZeroCurve stores a first pillar at zero years. With such a pillar calc_error_for_theta_fit raises AssertionError (the discount factor from 0 to 0 is refused), so fit_theta never completes: it leaves the object with the first dt and num of the search, with the spline of that pair, and raises. On pillars without the zero it would keep the first pair of least error, in the order in which pairs are tried, but the spline it leaves is that of the last pair tried, not that of the pair kept. The error it minimises is the root of the mean squared difference, in basis points, between the continuous rates of the pillars and those of the model.", "quantifier": "for all curves, all search grids, all integrators and spline constructors", "why_tests_cant": "The negative claim is about every curve and every search grid; the choice is claimed for every list of pairs with its ties.", "anchors": ["frm/pricing_engine/hw1f.py:HullWhite1Factor.fit_theta", "frm/pricing_engine/hw1f.py:HullWhite1Factor.calc_error_for_theta_fit", "frm/term_structures/zero_curve.py:ZeroCurve"]}
{"id": "C134", "title": "Integrated instantaneous forward rates", "statement": "On a curve with a spline on ln discount factors or on continuously compounded zero rates, get_forward_rate_by_integration(t, T) is ln(df(t) / df(T)), where df is what get_discount_factors returns, provided that the integrator is exact and the spline reports its own derivative. It is the total over the period, not a rate per year. On a linear curve it raises TypeError.", "quantifier": "for all splines with continuous derivative, all t and T", "why_tests_cant": "It is an identity of integrals over all smooth curves and all periods.", "anchors": ["frm/pricing_engine/hw1f.py:HullWhite1Factor.get_forward_rate_by_integration", "frm/term_structures/zero_curve.py:ZeroCurve.get_instantaneous_forward_rate"]}
{"id": "C135", "title": "Date grids for FX exposures", "statement": "create_date_grid_for_fx_exposures returns only when there are delivery dates, no sampling frequency is given, a DatetimeIndex of pillar dates is given and neither of the include flags is set; it then returns exactly the pillar dates, in strictly increasing order. Each of the documented sampling frequencies is refused with ValueError (the unit is passed where the direction is expected), any other with UnboundLocalError; either include flag raises TypeError; without frequency and pillars ValueError is raised, with something other than a DatetimeIndex AssertionError.", "quantifier": "for all lists of dates, all strings as frequency, all flags", "why_tests_cant": "Which calls return at all is claimed over every combination of arguments.", "anchors": ["frm/utils/schedule.py:create_date_grid_for_fx_exposures", "frm/utils/schedule.py:generate_date_schedule"]}
{"id": "C136", "title": "Geometric Brownian motion schemes: three programs, one path", "statement": "simulate_gbm, simulate_gbm_numba_prange and simulate_gbm_numba return the same path, or raise the same exception, for each of the methods 0-3. The path has one value more than there are random numbers, starts at x0, and its value after k steps is x0 times the product of the growths of the first k steps (exact log-normal, Euler, Milstein, second order). A number of random numbers other than ceil(T/dt) raises ValueError, dt = 0 ZeroDivisionError; another method raises NameError in the first and returns uninitialised memory in the other two. With x0 > 0 prices are positive whatever the random numbers exactly for the exact scheme, for Euler without volatility and 1 + mu dt > 0, for Milstein when sigma^2 dt < 1 + 2 mu dt (or no volatility and 1 + mu dt > 0), and for the second order scheme when sigma^2 dt < 1.", "quantifier": "for all starting values, drifts, volatilities, horizons, steps dt > 0, sequences of random numbers and methods", "why_tests_cant": "Agreement and positivity are over unboundedly many paths; the script only times the programs on random numbers.", "anchors": ["frm/pricing_engine/in_progress/gbm_speed_exploration.py:simulate_gbm", "frm/pricing_engine/in_progress/gbm_speed_exploration.py:simulate_gbm_numba_prange", "frm/pricing_engine/in_progress/gbm_speed_exploration.py:simulate_gbm_numba"]}
{"id": "C137", "title": "Moments and convergence of the geometric Brownian motion schemes", "statement": "With independent standard normal numbers the value after k steps has expectation x0 m^k and second moment x0^2 s^k, with m and s the stated polynomials or exponentials of one step; its mean squared distance from the exact solution on the same numbers is x0^2 (e^((2 mu + sigma^2) k dt) - 2 c^k + s^k). With n steps of length T/n, as n grows, the mean of every scheme tends to x0 e^(mu T) and the mean squared distance to 0.", "quantifier": "for all starting values, drifts, volatilities, horizons T > 0, numbers of steps and methods 0-3", "why_tests_cant": "Expectations and limits; a simulation only estimates them.", "anchors": ["frm/pricing_engine/in_progress/gbm_speed_exploration.py:simulate_gbm"]}
{"id": "C138", "title": "Multiprocessing helper accumulates over assets, not over time", "statement": "gbm_helper returns an array steps x assets x paths whose entry at step i, asset a and path j is x0 times the product over assets 0..a of one-step growths drawn at step i: nothing accumulates from one time step to the next, and with one asset the expected price is x0 e^(drift dt) at every step. With control variates there are 2*floor((end-start)/2) paths, and path j and its mirror multiply to x0^2 e^((2 drift - speed^2)(a+1)dt). Negative numbers of steps, assets or iterations are a ValueError.", "quantifier": "for all random numbers, parameters with dt > 0, non-negative sizes and ranges", "why_tests_cant": "The identity holds for every draw; the script prints one average.", "anchors": ["frm/pricing_engine/in_progress/monte_carlo_multiprocessing.py:gbm_helper", "frm/pricing_engine/option.py"]}
{"id": "C139", "title": "Orders of convergence of the geometric Brownian motion schemes", "statement": "With n steps of length T/n and independent standard normal numbers, direct integration has no error. n times the mean squared distance of the Euler path from the exact solution tends to x0^2 e^((2mu+sigma^2)T) sigma^4 T^2/2. n^2 times that of the Milstein path tends to x0^2 e^((2mu+sigma^2)T) ((mu^2 sigma^2 + sigma^6/6) T^3 + mu^2 (mu+2 sigma^2)^2 T^4/4), and of the scheme documented as second order to x0^2 e^((2mu+sigma^2)T) sigma^6 T^3/6: with volatility it is not of a higher order path by path. Its mean is: n^2 times the error of the mean tends to -x0 e^(mu T) mu^3 T^3/6, whereas for Euler and Milstein n times the error tends to -x0 e^(mu T) mu^2 T^2/2.", "quantifier": "for all starting values, drifts, volatilities and horizons T > 0, as the number of steps grows without bound", "why_tests_cant": "An asymptotic statement about expectations; simulation can only suggest a slope.", "anchors": ["frm/pricing_engine/in_progress/gbm_speed_exploration.py:simulate_gbm"]}
{"id": "C140", "title": "No arbitrage between strikes, and the implied distribution", "statement": "With positive time, volatility and annuity: for K1 < K2 the call is worth more at K1 (the put at K2), by less than A(K2-K1); for K1 < K2 < K3 the butterfly costs something, (K3-K1)p2 < (K3-K2)p1 + (K2-K1)p3. The same holds in the forward (in the spot for Garman-Kohlhagen with A = e^(-rf tau)) with call and put exchanged. The derivative of the price in the strike is -cp A times the probability that the option is exercised, and its second derivative is A times the positive density, where the terminal value is (F+s)e^(vZ-v^2/2)-s for Black-76, F+vZ for Bachelier and f e^(vZ-v^2/2) for Garman-Kohlhagen, v = vol sqrt(tau), Z standard normal; A is the annuity or the domestic discount factor in force.", "quantifier": "for all forwards, spots, rates, market forwards, volatilities, times, shifts, annuities and all pairs and triples of strikes", "why_tests_cant": "Inequalities over a continuum of strikes and a derivative identified with a Gaussian integral.", "anchors": ["frm/pricing_engine/black76_bachelier.py:black76_price", "frm/pricing_engine/black76_bachelier.py:bachelier_price", "frm/pricing_engine/garman_kohlhagen.py:garman_kohlhagen_price"]}
{"id": "C141", "title": "Put-call and foreign-domestic symmetries", "statement": "A Black-76 or Bachelier option equals the opposite option with forward and strike exchanged, also without time or volatility; a Bachelier option equals the opposite option with forward and strike negated. A Garman-Kohlhagen option on S struck at K is worth S K times the opposite option on 1/S struck at 1/K with the rates exchanged (with a market forward f, the inverse forward 1/f and the domestic rate it implies as foreign rate).", "quantifier": "for all positive (shifted) forwards, spots and strikes, all rates, optional market forwards, non-negative (for Garman-Kohlhagen positive) times and volatilities", "why_tests_cant": "An identity over all real inputs.", "anchors": ["frm/pricing_engine/black76_bachelier.py:black76_price", "frm/pricing_engine/black76_bachelier.py:bachelier_price", "frm/pricing_engine/garman_kohlhagen.py:garman_kohlhagen_price"]}
{"id": "C142", "title": "Limits of option prices in volatility and time", "statement": "As volatility, or time to expiry, tends to 0 the Black-76 and Bachelier prices tend to A max(0, cp(F-K)), also at the money (where the functions report nan at 0 itself). The Garman-Kohlhagen price tends to max(0, cp(S e^(-rf tau) - K DF)) as volatility vanishes; as time vanishes it tends to the value reported at expiry when only rates are given, but to S/f max(0, cp(f-K)) when a market forward f is held, which need not be the max(0, cp(S-K)) reported at expiry (a witness is given). As volatility grows Black-76 tends to A(F+s) for calls and A(K+s) for puts (also as time grows), Garman-Kohlhagen to S e^(-rf tau) and K DF; Bachelier exceeds every bound.", "quantifier": "for all inputs in the domain of each model", "why_tests_cant": "Limits.", "anchors": ["frm/pricing_engine/black76_bachelier.py:black76_price", "frm/pricing_engine/black76_bachelier.py:bachelier_price", "frm/pricing_engine/garman_kohlhagen.py:garman_kohlhagen_price"]}
{"id": "C143", "title": "Bachelier as the limit of shifted Black-76", "statement": "With lognormal volatility n/(F+s) the shifted Black-76 price tends to the Bachelier price with normal volatility n as the shift s grows without bound.", "quantifier": "for all forwards and strikes of any sign, times, normal volatilities, annuities, calls and puts", "why_tests_cant": "A limit relating two functions; for large shifts floating point cancellation hides it.", "anchors": ["frm/pricing_engine/black76_bachelier.py:black76_price", "frm/pricing_engine/black76_bachelier.py:bachelier_price"]}
{"id": "C144", "title": "What the Monte-Carlo bond option of the Hull-White simulation converges to", "statement": "The expected value of the Monte-Carlo zero coupon bond option is a Black-76 price for each of the three schemes at every number of steps: with payoffs discounted by the curve (calculate_zcbo_payoff), its forward is e^(-r0(S-T)) e^(b(r0-M) - b^2(V_T-V)/2) and its volatility b sqrt V, where M and V are mean and variance of the simulated rate and V_T the variance of the model; with payoffs left undiscounted and bonds from the curve the same with f(0,T) for r0 and annuity 1; with payoffs discounted along their paths M is lowered by the covariance of the rate with its integral and the annuity is the expected simulated discount factor. So on a flat curve the exact scheme with curve discounting prices every call below and every put above the closed formula. Calls less puts on the same paths are df(T)(mean bond price - K). The call in examples/hw1f.py raises TypeError because it names parameters the method does not have.", "quantifier": "for all positive mean reversions, volatilities, expiries, maturities, strikes, schemes, numbers of steps and paths, seeds and sources of random numbers", "why_tests_cant": "An expectation over all random numbers; a run shows one sample whose error hides the bias.", "anchors": ["examples/hw1f_zcbo_valuation_v2.py:calculate_zcbo_payoff", "examples/hw1f_zcbo_valuation.py", "examples/hw1f.py", "frm/pricing_engine/hw1f.py:HullWhite1Factor.simulate", "frm/pricing_engine/hw1f.py:HullWhite1Factor.price_zero_coupon_bond_option"]}
{"id": "C145", "title": "The Hull-White simulation as the number of steps grows", "statement": "For each of the three schemes the mean, variance and expected discount factor of the simulation tend to r0 + sigma^2/(2 alpha^2)(1-e^(-alpha T))^2, sigma^2/(2 alpha)(1-e^(-2 alpha T)) and e^(-r0 T) as the steps shrink. Bond option payoffs discounted along their paths tend in expectation to the closed formula of price_zero_coupon_bond_option; discounted with the curve they tend to a strictly smaller number for calls and a strictly larger one for puts.", "quantifier": "for all positive mean reversions, volatilities, expiries, maturities and strikes, flat curves, schemes", "why_tests_cant": "A limit of expectations.", "anchors": ["frm/pricing_engine/hw1f.py:HullWhite1Factor.simulate", "frm/pricing_engine/hw1f.py:HullWhite1Factor.price_zero_coupon_bond_option", "examples/hw1f_zcbo_valuation_v2.py:calculate_zcbo_payoff"]}
{"id": "C146", "title": "The Milstein branch of simulate_hw1f", "statement": "Both branches of simulate_hw1f give the terminal rate the mean theta/a + (1-a dt)^n (r0 - theta/a). Its variance is that of Euler's scheme in the euler branch, and 1 + sigma^2 dt/2 times it in the other, whose correction term is spurious for a constant volatility. In the limit of small steps both have the mean and variance of dr = (theta - a r)dt + sigma dW.", "quantifier": "for all parameters with a not zero (positive for the limit), horizons, numbers of steps, method names", "why_tests_cant": "Expectations over all random numbers and a limit; the script compares only the means, which agree.", "anchors": ["examples/hw1f.py:simulate_hw1f"]}
{"id": "C147", "title": "The Monte-Carlo bond option of hw1f2 and hw1f3", "statement": "The simulation grid runs from 0 to the expiry in positive steps no longer than time_step. The expected value of a sample of bond_option_prices is cp times a Black-76 price whose annuity, forward and volatility are determined by the grid: calls are positive, puts are minus their price, in every sample and in expectation. The first period is never discounted, so an option expiring within one time step is not discounted at all. As time_step goes to 0 on a curve with continuous forward rates the expectation tends to cp times the price of price_zero_coupon_bond_option.", "quantifier": "for all curves with positive discount factors, mean reversions > 0, volatilities, expiries, maturities, strikes, time steps, calls and puts; the limit for all sequences of time steps going to zero", "why_tests_cant": "Expectations over all random numbers and a limit over grids; the scripts print one average of one call.", "anchors": ["frm/pricing_engine/hw1f2.py:sim_grid", "frm/pricing_engine/hw1f2.py:bond_option_prices", "frm/pricing_engine/hw1f3.py:bond_option_prices"]}
{"id": "C148", "title": "analytic_valuation agrees with price_zero_coupon_bond_option", "statement": "With constant mean reversion (at least 1e-8) and non-negative volatility, analytic_valuation returns the value of HullWhite1Factor.price_zero_coupon_bond_option in every branch: Black's formula, the undiscounted intrinsic value at zero variance, zero when the bond matures before the expiry. The knots of the volatility do not matter. With a negative volatility analytic_valuation prices as with its absolute value and price_zero_coupon_bond_option returns the intrinsic value. With a mean reversion between 0 and 1e-8 price_zero_coupon_bond_option is strictly dearer.", "quantifier": "for all discount rate functions, knots, mean reversions, volatilities, expiries, maturities, positive strikes, calls and puts", "why_tests_cant": "Agreement of two implementations over all real inputs, including thresholds; the script compares one price by eye.", "anchors": ["examples/hw1f_tfqf_validation_from_scratch.py:analytic_valuation", "examples/hw1f_tfqf_validation_from_scratch.py:bond_option_variance", "frm/pricing_engine/hw1f.py:HullWhite1Factor.price_zero_coupon_bond_option"]}
{"id": "C149", "title": "Which calendar names get_busdaycal knows", "statement": "A text is accepted exactly when its upper-case form is one of the names in CCY_HOLIDAY or LOCALE_HOLIDAY, a list exactly when all its members are; otherwise ValueError. Case never matters. The names European_Central_Bank, ICE_Futures_Europe and New_York_Stock_Exchange, and no others, can never be reached by a text or a list (keys are upper-cased first), so the holidays of the two exchanges influence no calendar; in a tuple or set, whose members are used as they are, they work and every other name with a lower-case letter fails. Every currency but EUR has the calendar of a place; an empty list makes every day a business day while None gives Monday to Friday; outside 1990-2099 only weekends are holidays. The names are 36 currencies and 43 places (Tokyo, Bangkok and Taipei misspelt, so refused under their right names); each currency but EUR has the calendar of its own financial centre, and a place the public holidays of the country its name begins with and of its region where one is given (Frankfurt is given Hamburg's), with bank holidays only in Australia, Chile and Thailand.", "quantifier": "for all texts, lists and iterables of keys, all contents the holidays package may return for the calls in the file, all dates", "why_tests_cant": "Quantifies over all strings and over arbitrary contents of the pickled holiday objects.", "anchors": ["frm/utils/business_day_calendar.py:get_busdaycal", "frm/utils/business_day_calendar.py:get_holidays_object", "frm/utils/business_day_calendar.py:LOCALE_HOLIDAY", "frm/utils/business_day_calendar.py:CCY_HOLIDAY"]}
{"id": "C150", "title": "Which Hull-White parameters prices of bond options determine", "statement": "With the mean reversion given, a price strictly between the discounted intrinsic value and the discounted bond (call) or strike (put) is the price_zero_coupon_bond_option of exactly one positive volatility, and no other price is. With the volatility given, prices fall strictly as the mean reversion rises. Options of one expiry on one bond do not determine both: for every other mean reversion exactly one volatility gives the same prices at every strike, calls and puts alike, and it is larger when the mean reversion is. Options of one expiry on two bonds do determine both.", "quantifier": "for all discount curves, expiries, maturities, strikes, types, mean reversions of at least 1e-8 and positive volatilities", "why_tests_cant": "Existence and uniqueness over all real parameters; a minimiser run only exhibits one fit and says nothing about the others.", "anchors": ["frm/pricing_engine/hw1f.py:price_zero_coupon_bond_option", "frm/pricing_engine/hw1f.py:calc_b", "examples/hw1f_price_optionlet_and_solve_params.py"]}
{"id": "C151", "title": "What make_schedule does with first_period_end and last_period_start", "statement": "A first_period_end outside (start, end] or a last_period_start outside [start, end) is an AssertionError; at the ends of these ranges there is one period, equal dates give two. Otherwise the outcome is decided by where the dates fall on the schedules generated forwards and backwards, as tabulated: dates that coincide with the boundaries of a short or long stub or of no stub select that schedule, others start or end the generation there. A stub argument is ignored on the side where a date is given. Two dates that ask for different directions are an AssertionError; a date inside a span of a single generated period and not on its ends is an IndexError. With both dates given, each is a boundary of the result unless the other alone is off both schedules or a long stub is merged.", "quantifier": "for all calendars, roll conventions, roll days, start and end dates, frequencies, user dates and stub settings", "why_tests_cant": "Thirty-odd combinations of placements and stubs for all dates, frequencies and calendars.", "anchors": ["frm/utils/schedule.py:make_schedule", "frm/utils/schedule.py:generate_date_schedule"]}
{"id": "C152", "title": "Heston integral prices of an asset without variance", "statement": "When the variance starts at zero and reverts to zero, the log price moves along the forward. Given a quadrature that finds every convergent integral over (0, inf), the heston_1993, heston_lipton and heston_carr_madan_gauss_kronrod_quadrature prices of calls and puts are then exactly the discounted intrinsic value e^{-r tau} max(0, cp (F - K)) of the forward F = S0 e^{(r - q) tau}: in, at and out of the money, for every maturity and whatever the volatility of variance and correlation, as long as the variance stays mean reverting under the measures the method uses. The market price of volatility risk does not matter.", "quantifier": "for all exact quadratures, spots, strikes, rates, maturities, mean reversion speeds, volatilities of variance and correlations in the stated region", "why_tests_cant": "It is about the exact value of improper oscillating integrals for a continuum of parameters.", "anchors": ["frm/pricing_engine/heston.py: heston1993_price_vanilla_european, heston_1993_vanilla_european_integral, heston_carr_madan_price_vanilla_european, heston_fft_vanilla_european_integral, heston_lipton_price_vanilla_european, heston_lipton_vanilla_european_integral"]}
{"id": "C153", "title": "The archived fixings classes", "statement": "The archived OISFixings returns the rates of RFRFixings for the method passed, or for its own attribute when none is passed; with neither every request for at least one period is a ValueError. The archived TermFixings has neither the attribute nor a day count basis: without a method it always raises AttributeError, for the two averages it returns the rates of RFRFixings, and daily compounding never succeeds (ValueError when the fixings do not cover the periods, AttributeError otherwise).", "quantifier": "for all tables of fixings, lists of periods and methods", "why_tests_cant": "Agreement of two classes for every table and list of periods, and an unconditional failure.", "anchors": ["frm/term_structures/archive/ois_fixings.py: OISFixings, TermFixings", "frm/term_structures/historical_swap_index_fixings.py: RFRFixings"]}
{"id": "C154", "title": "Heston's model tends to a lognormal one as the volatility of variance vanishes", "statement": "For a positive mean reversion speed, a correlation between -1 and 1 and every complex argument, the Heston characteristic function is defined for all small positive volatilities of variance and tends, as these go to zero, to the characteristic function of a lognormal asset with mean growth (r - q) tau and total variance the integral of the deterministic variance path dv = kappa (theta - v) dt from var0. All three representations (fang, albrecher, 1993 second function) share the limit; with theta = var0 it is the Black-Scholes function with variance var0 tau. At zero itself the function never has a finite value.", "quantifier": "for all parameters and complex arguments, and all sufficiently small volatilities of variance", "why_tests_cant": "A limit: the formula cancels catastrophically near zero, so floating-point tests cannot tell a wrong limit from rounding.", "anchors": ["frm/pricing_engine/heston.py: chf_heston_fang2008, chf_heston_albrecher2007, heston_1993_vanilla_european_integral"]}
{"id": "C155", "title": "Direction of schedule generation and spurious stub periods", "statement": "Take a month-based frequency, a modified roll convention, a calendar with a business day in every month, and a term that spans n whole periods counted in calendar months. Forward generation gives n-1 interior boundaries plus one more exactly when the n-th boundary falls before the end date. If a roll day is given, or start and end are on the same day of the month, backward generation has the same n-1 boundaries plus one more exactly when the adjusted start date falls after the start date. So the two directions give the same schedule when both dates are already adjusted. A start date that is not a business day, with a later business day in its month, makes the default schedule n+1 periods long: an additional first period up to the next business day, which is empty when the user's dates are rolled. A last short stub does the same at an end date that rolls back.", "quantifier": "for all calendars, month-based frequencies, roll days, numbers of periods, start and end dates", "why_tests_cant": "The additional period depends on the weekday and holidays around the start and end date; tests use dates that are business days.", "anchors": ["frm/utils/schedule.py: make_schedule, generate_date_schedule"]}
{"id": "C156", "title": "SABR smiles without volatility of volatility, and their wings", "statement": "For a positive shifted forward and strike, alpha not 0 and a correlation strictly between -1 and 1, the SABR volatility outside the at-the-money band tends, as the volatility of volatility goes to zero, to Hagan and Woodward's volatility for the constant elasticity model; for beta = 1 it tends to alpha at every strike. (At zero itself the code returns NaN there, C92; inside the band it returns the limit without the factor for the distance from the forward.) For beta = 1, positive alpha and volatility of volatility, and a positive time correction: with correlation at most 0 the volatility never falls as the strike moves down from the forward, with correlation at least 0 it never falls as the strike moves up, and strictly rises once outside the band. With correlation 0 strikes K1, K2 with (K1+shift)(K2+shift) = (F+shift)^2 have the same volatility.", "quantifier": "for all forwards, strikes, shifts, times, alphas, betas, correlations and small volatilities of volatility", "why_tests_cant": "Limits and monotonicity over all strikes; near zero the formula is 0/0 in floating point.", "anchors": ["frm/pricing_engine/sabr.py: calc_sln_vol_for_strike_from_sabr_params"]}
{"id": "C157", "title": "Option prices solve their pricing equations with the reported greeks", "statement": "The slope of the Black76 price in time to expiry is half the squared volatility times the squared shifted forward times the slope of the reported delta in the forward; for Bachelier it is half the squared volatility times the slope of the reported delta. Without a market forward the Garman-Kohlhagen price's slope in time to expiry is 1/2 vol^2 S^2 Gamma + (rd - rf) S Delta - rd Price, with Delta the reported spot delta, Price the reported price and Gamma the reported gamma times 100/S. With or without a market forward, reported vega = vol * tau * spot * reported gamma, and spot times spot delta plus strike times the slope of the price in the strike is the price.", "quantifier": "for all calls and puts, positive spot/forward (shifted), strike, time and volatility, and all rates", "why_tests_cant": "Relations between derivatives on a continuum of inputs.", "anchors": ["frm/pricing_engine/black76_bachelier.py: black76_price, bachelier_price", "frm/pricing_engine/garman_kohlhagen.py: garman_kohlhagen_price"]}
{"id": "C158", "title": "The closed-form normal volatility", "statement": "black76_sln_to_normal_vol_analytical depends on the shifted forward and strike only and is symmetric in them, scales with the unit of the rates, and raises ZeroDivisionError for a shifted strike of zero. For positive shifted rates and volatility it is finite and positive when the squared logarithm of their ratio is at most 195; from 196 on there are volatilities for which it is negative. At the money it differs from the exact conversion of black76_sln_to_normal_vol by at most vol (F+shift) (vol^2 tau)^3 / 17280. At tau = 0 it lies between the volatility times the geometric mean and the volatility times the logarithmic mean of the two shifted rates.", "quantifier": "for all forwards, strikes, shifts, volatilities and times", "why_tests_cant": "Error bound and sign over a continuum; floating-point samples do not give a bound.", "anchors": ["frm/pricing_engine/black76_bachelier.py: black76_sln_to_normal_vol_analytical, black76_sln_to_normal_vol"]}
{"id": "C159", "title": "Total interest of a fixed leg", "statement": "Take a schedule whose periods run without gaps and in order from a to b, a CouponSchedule over it with one notional, a calendar with business days, a rolling convention and valid payment timings, and a basis among ACT/360, ACT/365, ACT/366, ACT/ACT and 30E/360. Building the CouponSchedule and the FixedLeg on it with one rate always succeeds, and the coupons it computes add up to notional times rate times year_frac(a, b). So the total is the same for every frequency, stub choice, day roll, direction, calendar, payment delay, exchange of notionals and side. Schedules by whole months under a modified convention always exist and meet the requirements. Under 30/360 this fails: there is a two period leg whose coupons do not add up to the interest of the whole span, for every nonzero notional and rate.", "quantifier": "for all schedules, calendars, notionals, rates and leg settings", "why_tests_cant": "The number of periods is unbounded and the settings combine freely; a test fixes one schedule.", "anchors": ["frm/utils/schedule.py: make_schedule, CouponSchedule", "frm/instruments/leg.py: FixedLeg.calc_coupon_payment", "frm/utils/daycount.py: year_frac"]}
{"id": "C160", "title": "No calendar arbitrage on interpolated volatilities", "statement": "Two Black-76 (or Bachelier) prices of the same type on the same forward, strike and annuity with positive expiries and volatilities compare exactly as their total variances vol^2 tau. So when flat_forward_interp interpolates between two pillars whose total variance does not fall, the later of two expiries never has the cheaper option; when it falls the call raises ValueError. On the daily FX volatility surface: if total variance does not fall from any pillar to the next, every day has finite positive volatilities and, of two options priced with the same column on the same forward and strike, the later never is the cheaper. Pillars on consecutive days are not checked: a surface that loses variance overnight is accepted and the later option is cheaper. FX options with one ratio of strike to forward are ordered the same way once their prices are grown at the foreign rate to expiry, whatever the rates and forwards of the two expiries.", "quantifier": "for all pillars, dates, forwards, strikes and volatilities", "why_tests_cant": "An inequality between any two of the days of any surface, over continuous strikes and forwards.", "anchors": ["frm/pricing_engine/volatility_generic.py: flat_forward_interp", "frm/term_structures/fx_volatility_surface.py: FXVolatilitySurface._setup_vol_smile_daily_df", "frm/pricing_engine/black76_bachelier.py: black76_price, bachelier_price", "frm/pricing_engine/garman_kohlhagen.py: garman_kohlhagen_price"]}
{"id": "C161", "title": "Setting up an FX volatility surface", "statement": "A surface has one date: its curve date equals that of both zero curves, and a curve date or spot date that is given is kept. From a curve date the spot date is one or two business days after the first business day at or after it, the two currencies stay the ones named (lower case, never exchanged), fx_spot_rate is the rate of the row whose tenor spells spot, wherever that row stands, and that row delivers on the spot date if it has no dates of its own. From a spot date it delivers on the last business day at or before the spot date. Zero curves of another date, and a curve date with a later spot date, raise AssertionError; all of curve date, offset and spot date raise TypeError; neither date AttributeError. Forwards without a spot row raise IndexError, without the rate column AssertionError, without the tenor column KeyError. Every other row keeps its own rate through the sort by delivery date.", "quantifier": "for all currencies, calendars, dates and frames of forwards", "why_tests_cant": "Dates and calendars are unbounded, and which rate is the spot rate depends on the order of arbitrary rows.", "anchors": ["frm/term_structures/fx_volatility_surface.py: FXVolatilitySurface.__post_init__", "frm/term_structures/fx_helpers.py: fx_forward_curve_helper, fx_term_structure_helper, validate_ccy_pair", "frm/utils/tenor.py: resolve_fx_curve_dates"]}
{"id": "C162", "title": "Forward and zero rates of an FX surface's rows", "statement": "Every row of the pillar and daily frames of an FX volatility surface has the forward of its own expiry, interpolated between the fixing dates of the forward curve (flat beyond them), and the continuous domestic and foreign zero rates that each curve gives for that expiry alone; these rates discount exactly as the curves do. So both frames have the same rates for the same expiry, and all days between accepted pillars are accepted. If one expiry is not on both zero curves, or a fixing date is repeated, the whole frame is refused with ValueError, also for curves set to extrapolate flat: no row silently gets the rates of another expiry.", "quantifier": "for all built zero curves, forward curves and lists of expiries", "why_tests_cant": "Any number of rows in any order can be asked for, and the curves drop dates outside their range, which shifts rows only for particular combinations of dates.", "anchors": ["frm/term_structures/fx_volatility_surface.py: FXVolatilitySurface._add_fx_ir_to_df", "frm/term_structures/zero_curve.py: ZeroCurve.get_zero_rates", "frm/term_structures/fx_helpers.py: interp_fx_forward_curve_df"]}
{"id": "C163", "title": "Pillars of an FX volatility surface", "statement": "A complete frame of volatility quotes gives exactly one pillar per quoted tenor, in order of delivery, and each pillar keeps its own quotes next to the expiry and delivery date of its own tenor, the year fraction from the curve date to that expiry, and the forward and zero rates of that expiry. Whatever the frame, a pillar that is kept has an expiry on or after the curve date and on both zero curves. A frame without a tenor column raises KeyError and one with a missing tenor TypeError.", "quantifier": "for all frames of quotes (with an expiry wherever a delivery date is given), calendars, curves and plain day count bases", "why_tests_cant": "The frame is sorted after dates are filled in, so whether quotes stay with their tenor depends on the order and dates of arbitrarily many rows.", "anchors": ["frm/term_structures/fx_volatility_surface.py: FXVolatilitySurface._setup_vol_smile_pillar_df", "frm/term_structures/fx_helpers.py: fx_term_structure_helper", "frm/utils/daycount.py: year_frac"]}
