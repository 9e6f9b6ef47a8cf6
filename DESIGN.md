# Formal model of ArgonneCPAC/dsps in Rocq (Coq 8.16.1)

## 1. What is modelled

`rocq/theories/M*.v` is a function-by-function transcription of the numerical code of
`/repo/dsps`. Every definition cites the file and lines it models; simplifications are
in that comment.

| model file | code |
|---|---|
| `Num.v`, `Arr.v` | arithmetic and the jnp/numpy primitives used (see 3) |
| `MUtils.v` | `constants.py`, `utils.py` |
| `MSed.v` | `sed/stellar_age_weights.py`, `metallicity_weights.py`, `ssp_weights.py`, `stellar_sed.py` |
| `MDiffburst.v` | `sfh/diffburst.py` |
| `MImf.v` | `imf/remnant_mass.py`, `imf/surviving_mstar.py` |
| `MMzr.v` | `metallicity/mzr.py`, `metallicity/umzr.py` |
| `MDust.v`, `MBlackbody.v` | `dust/att_curves.py`, `dust/utils.py`, `dust/blackbody.py` |
| `MCosmo.v` | `cosmology/flat_wcdm.py`, `cosmology/defaults.py` |
| `MPhot.v` | `photometry/photometry_kernels.py`, `photpop.py`, `utils.py` |
| `MEmlines.v` | `em_lines/equivalent_width.py` (with `lstsq` as a parameter) |
| `MLoaders.v`, `EmlinesDat.v` | `data_loaders/{defaults,load_*,retrieve_fsps_data}.py`, `scripts/write_fsps_data_to_disk.py`, `data/emlines_info.dat` |
| `MGrad.v`, `MTrace.v`, `MTrace2.v`, `MTrace3.v`, `MTrace4.v`, `MTrace5.v` | `jax.grad`: reverse-mode differentiation of traced programs, and the traces of dsps functions |
| `MFake.v` | `data_loaders/retrieve_fake_fsps_data.py` (random draws and set iteration order are inputs) |

Not modelled: plotting (`metallicity/diagnostics`), tests, notebooks; JIT, `vmap`
batching strategy (C115-C120 are about differentiability of the functions themselves; what
`jax.grad` returns is modelled in `MGrad.v`, see below, for the functions of C159-C172); broadcasting other than of length-1 axes of the documented vector and cube arguments (C20, C127, C156), for instance vectors passed where a scalar is documented; text of error messages;
non-ASCII strings; the on-disk HDF5 format (a file is a map from dataset names to
arrays); the random number generator (draws are inputs); `jnp.linalg.lstsq` and
python-fsps (parameters with a stated contract; JAX's `lstsq` drops singular values below a
relative cut-off, so the contract "residual minimal" is an idealisation for nearly singular windows).

## 2. Numbers

A number is `Fin x` (x real), `PInf`, `NInf` or `NaN`; comparisons with NaN are false,
0/0 is NaN, log 0 is -inf, 10**-inf is 0, and so on. Every finite operation is "exact
result, then `rnd`" for an arbitrary class instance `Arith`:

* `exact`: no rounding. Theorems about sums being exactly 1, integrals, closed forms,
  relations between two runs are stated in `exact`: they are the mathematical content
  of the code; for the weight, SED and photometry pipeline C128-C143, C152-C155, C157-C158 and C173-C175 bound the distance between the
  floating-point and the exact run by explicit multiples of the unit roundoff (elsewhere the
  rounding is not quantified).
* `binary64`, `binary32` (`Float.v`): IEEE-754 round to nearest even with gradual
  underflow and overflow to infinity, built with Flocq. Range and sign theorems that
  survive rounding are stated there (C93, C94), and error bounds (C128-C136, C139-C143, C152-C155, C157-C158, C173-C175).

`reduce`, the third component of `Arith`, is the order in which a reduction combines the entries
of an array, and `elem`, the fourth, is the mathematical library (exp, ln, log10, pow), which
need not be correctly rounded. `ieee_arithmetic` and `accurate_to u` (SpecFloat.v) quantify over
double and single precision, with gradual underflow or with subnormal results flushed to zero
(XLA's CPU backend flushes), every order, and every library that is accurate (`accurate_library`,
Float.v): not NaN, machine-number results within a relative error u (u between the unit roundoff
and 2^-22; plus u 2^-102 for results that underflow), no overflow below 1e38, and never on the wrong
side of 0 or 1. In single precision that is up to two units in the last place; in double
precision every practical library qualifies. `monotone_library` is an extra hypothesis of C94,
of C128's age weights and of the monotone sigmoid of C93. `binary64` and `binary32` are the
instances with left-to-right sums and a correctly rounded library; only the counterexamples, C153
(blackbody) and the concrete examples are about those instances.
Simplifications: one zero (read as +0), and no fused multiply-add (XLA may fuse).

Exceptions are values: `Ok v` or `Raise e`.

## 3. Trusted base

* Coq 8.16.1 kernel (and `coqchk` as a second opinion).
* Axioms: only those of the standard library's real numbers and classical logic, as
  printed by `Print Assumptions` after every property theorem:
  `ClassicalDedekindReals.sig_not_dec`, `ClassicalDedekindReals.sig_forall_dec`,
  `FunctionalExtensionality.functional_extensionality_dep`, and `Classical_Prop.classic`
  (through Coquelicot/Flocq lemmas). No axiom is declared in this development. The
  theorems about strings and files are closed under the global context.
* Libraries used: Coq stdlib, Flocq (`Core.Raux` booleans and rounding), Coquelicot
  (derivatives, Riemann integrals). They are compiled against the same axioms.
* The transcription itself, including the semantics given in `Num.v`/`Arr.v` to
  `jnp.interp`, `jnp.trapezoid`, `jnp.linspace`, `jnp.logspace`, `jnp.searchsorted`,
  `jnp.where`, `jax.nn.sigmoid`, `x**n`, `np.interp`, `np.linspace`, `np.clip`,
  `np.isclose`, `namedtuple`, `os.path.join`. These libraries are not in `/repo`.

## 4. Layout of the proofs

* `Spec.v`, `Spec2.v` (real-number vocabulary), `SpecApi.v`, `SpecLoad.v` (strings, files,
  records), `SpecFloat.v` (floating point): the vocabulary used in theorem statements (sum of
  a real list, increasing list, distribution, piecewise-linear interpolant, band integral,
  differentiable along a curve...). They do not refer to the model's helpers, except that
  `SpecApi`, `SpecLoad` and `SpecFloat` mention the model's record and error types.
* `RList.v` and `L*.v`: lemmas (`LAge*`, `LMet*`, `LJoint` SED; `LKern*` triweight kernels;
  `LBurst`; `LImf`; `LDust*`; `LBlack*`; `LCosmo*`; `LPhot`; `LMzr*`; `LEmline`; `LLoad*`;
  `LFake*`; `LFloat*`, `LRound*` rounding; `LDiff*` differentiability; `LCont*` continuity; `LPop*` populations; `LShape` shapes; `LCalc`, `LMisc`).
* `Demo*.v`: a concrete galaxy and grid used by the non-vacuity examples.
* `P*.v`: property theorems only, each with the statement in full, proved by one lemma,
  followed by `Print Assumptions`, and non-vacuity `Example`s beside them. Most are generated by
  `tools/expand.py` from `tools/P*.in` (which copies the statement of the lemma), so that
  statement and lemma cannot drift apart; the generated files are committed.
* A property whose natural claim is false has a theorem ending in `_refuted`
  (a counterexample reachable through the API); a theorem that covers only part of a
  property would end in `_partial` (there is none at present).
* `tools/mkprops.py` writes `properties.jsonl`, `tools/mkmanifest.py` writes `MANIFEST.json`
  from the theorem names, `tools/mkproj.sh` writes `_CoqProject`.

## 5. Plan per property

See `properties.jsonl` for the statements, `MANIFEST.json` for the status.

* C01-C07, C20, C21: bridge lemmas reduce the model on finite inputs to real lists
  (`map Fin`). Age weights telescope: weight_j = (M(e_j)-M(e_{j+1}))/(M(e_0)-M(e_n)),
  M = 10**interp(log10 t_birth). Monotonicity of M from monotone interpolation.
  Counterexample grid for C02. C07: interpolation reads only the two neighbouring nodes.
* C08, C09, C26, C27: induction over `scan`; Coquelicot `RInt` of the piecewise-linear
  function by Chasles and explicit primitives.
* C10-C14: telescoping of the triweight CDF; case analysis of the fill-in branch.
* C15-C19: sums of outer products; C19 by the fact that both matrices are the same
  after normalisation.
* C22-C24: polynomial identities (derivative 35/96 (1-z^2/9)^3 / h), sign analysis.
* C25, C31, C32, C72-C74: logistic function, inverse; C73 explicit u.
* C28, C29, C30: algebra; C29 fundamental theorem of calculus for x^g.
* C33-C36: normalisation with a zero guard.
* C37-C39, C77, C78: hand bounds on exp; the inequality (y-1) e^-y <= e^-2.
* C40-C47: monotonicity of 10**x, quadratic discriminants, rational arithmetic.
* C48-C51: exp/ln identities; e^x > 1 + x.
* C52-C62: positivity of E, trapezoid bounds on the linspace grid.
* C63-C71: linearity of interpolation and of the trapezoid sum.
* C79-C81: least squares contract (residual minimal); a polynomial of degree 2 with
  three zeros vanishes; witness solver by normal equations.
* C82-C92: case analysis and list induction on the filesystem model.
* C93, C94: monotone rounding (`rnd` monotone, exact on representable bounds); the
  refutations run the rounded program on a concrete input with exact rational enclosures.
* C95, C112, C113: trapezoid error bounds (convexity), comparison of the quadrature grid
  with the textbook integral.
* C96, C97, C114: closed forms of the mass-metallicity relation, sign of its time derivative.
* C98, C99: ranges of the random parameter draws (draws universally quantified).
* C100-C103: closed forms and telescoping for the remaining helpers.
* C104-C106: list induction over the python-fsps retrieval loop (the library is a parameter).
* C107-C110: dummy data: the naming loop is a search over a stream of draws
  (`None` = the loop does not end on this stream), set order is an arbitrary permutation.
* C111: derivative of Planck's law, uniqueness of the root of x = 5 (1 - e^-x).
* C115-C120: composition of differentiable functions along a curve of inputs; interpolation
  is locally affine away from its nodes; the triweight CDF is C^1 through its clipping points.
* C121: linearity of interpolation, band integral and template mixture in the spectrum.
* C122, C123: monotonicity of the band integral in the spectrum, logarithms.
* C124, C125: as C115-C119 with continuity; interpolation is a sum of clamped ramps, hence
  continuous across its nodes. C126: explicit one-sided limits at the kink and the jump.
* C127: the length of every intermediate array is computed from the lengths of the inputs,
  for an arbitrary arithmetic; the only error sources are length mismatches.
* C128-C134: forward error analysis: one relative error per operation (plus u 2^-102 for
  results that underflow, gradually or to zero), composed through the trapezoid scan, log10, the interpolation (Lipschitz in its data
  with slope K), 10**x, differences of masses and normalisations (`LFloat10`-`LFloat13`,
  `LRound*`). A sum (`jnp.sum`) is evaluated in an order the statement quantifies over (any
  bracketing of any permutation of the entries, `any_order` in Num.v): XLA chooses it.
* C135, C136: the same through the resampling of the spectrum on the filter (knots moved by
  a relative 2u under a redshift), the band integrals and their quotient, and log10.
* C139, C140: a calculus of relative errors measured on the logarithm (`LRound21`): products
  and quotients add errors, powers multiply them by the exponent, sums of positive terms keep
  the maximum; the quadrature grid and its spacings carry their own error (`LRound22`).
* C141: the absolute-error calculus of `LRound6` through the triweight kernel (Lipschitz), the
  zero-safe normalisation and the convex mixing; that a mixed weight never exceeds 1 uses that a
  value below 1 + u rounds to at most 1.
* C142: `LEval.v` evaluates the model on concrete machine numbers: a rational is rounded by
  integer arithmetic, the rounding certified by a boolean check that the kernel computes; the
  counterexamples run the whole metallicity pipeline this way. The bounds follow from C132.
* C143: relative errors for the powers of 1/wavelength, absolute errors for their signed sums;
  the bump's denominator (a difference of squares, squared, plus a square) by 2ab <= a^2+b^2; the
  transmission by t exp(-t) <= 1/e.
* C144, C145: "increments of the floored table follow up to a factor" is an invariant carried through
  the trapezoidal cumulative sum, the log-mass interpolation (a geometric interpolation between nodes,
  whose increments are compared with power means), the normalisation, the SED sum and the magnitudes.
* C146: panel error of the trapezoid rule for a Lipschitz function, induction over the table nodes;
  between nodes both the interpolated and the true mass lie between their node values; perturbation of
  a ratio for the weights. For a metallicity history the table reading is within Kz h of the metallicity
  at birth (both neighbouring nodes are within one step) and C148 bounds the effect on the SED. The SED
  limits take a step small enough for bounds linear in it (a finite template cube is bounded).
* C147: node masses are linear in the history; between nodes each mass lies between its node values;
  the refutation squares the log-midpoint masses of a two-point table.
* C148: Lipschitz bound of the triweight CDF in its centre and its width; summation by parts over the
  metallicity grid; metallicity histories through the linearity and range of the interpolation.
* C149: the quadrature tables do not depend on the cosmology, so the sums compare term by term; dark
  energy compares through ln(1+z) > z/(1+z) (LCosmoPar.v, vocabulary in SpecPar.v).
* C150: the error of one trapezoid cell from a bound on the second derivative, summed over the table
  with |(1/E)''| <= (15/4)/(1+z)^2 (LCosmo3.v, LCosmo4.v).
* C151: refuted claim. 1/E < 1/(sqrt(Om0)(1+z)^1.5) bounds the true distance; the first cell of the
  table alone exceeds that bound (LCosmo5.v).
* C152: the relative error of the spectrum passes through interpolation and band integral unchanged
  (both are linear and monotone), C135/C140 are applied to the computed spectrum with a bound 1.01 B and
  1.03 kappa, and C134 gives the relative error; the entries of the spectrum are results of a rounded
  product, hence machine numbers. The exact spectrum and its flux appear in the hypotheses (eps, kappa).
* C153: a calculus for positive doubles over the whole normal range that tracks the error of the logarithm
  (LRound45: product, quotient, exp and log), the cancellation in exp x - 1 (LRound46), then the densities
  (LRound47-49); overflow to infinity and rounding of exp x to 1 at the two ends (LRound50).  Files PRound3.v, SpecFloat6.v.
* C154: forward error analysis (LRound52-54) with the absolute calculus `near`: the logistic is 1-Lipschitz in its
  argument, the clip `where(x < 0, 0, x)` is non-expansive, each slope line amplifies the error of its argument by
  the slope. Both copies of the relation (umzr.py and mzr.py) are covered; parameters must be machine numbers (the
  default parameter literals themselves are decimal, so they are covered after rounding).
* C155: log-relative calculus `npos` (LRound21-25) applied to the remaining functions of cosmology/flat_wcdm.py; the virial polynomial switches to absolute errors (`near`) and back, its value being at least 56 (C59).
* C157: the same two calculi applied to `remnant_mass` and `surviving_mstar` (LRound57): absolute errors (`near`) through the sigmoid of slopes, log-relative (`npos`) through the powers of ten; compared with the closed forms of C37-C39.
* C158: the error bounds of C135, C136 and C140 for one template and one filter, carried to every entry of the population tables by C70 (an entry is the single-galaxy magnitude, in any arithmetic) (LRound58).
* C173: error of the two trapezoidal sums (as in C135), of their quotient and of the division by 1+z (LRound59); for the triweight curve the error of
  the cumulative kernel (LRound6) is carried through the slope and the power of ten.  File PRound4.v.
* C174: the argument of a step has a small relative error whatever its size; the kernels are Lipschitz near their transition and constant
  (triweight) or within u of a constant (logistic, overflow of exp included) away from it (LRound60).  File PRound4.v.
* C175: the error of the difference of the two end powers is compared with the convex combination of the end powers, which is
  at least each of its parts; then the log-relative calculus of C155 (LRound61; the range
  of a sample in LRound62, the density for a negative index in LRound63).  File PRound4.v.
* C159-C163: `MGrad.v` models reverse-mode differentiation as JAX does it: a traced program (a tree of primitives), its
  value `eval`, and `back`, which carries a cotangent from the output to the input with the local rule of every
  primitive (the rules of jax/_src/lax/lax.py are trusted, as is the fact that a `jnp.where` sends the cotangent 0
  through the branch it did not select). `MTrace.v` has the traces of the dsps functions; that a trace computes the
  modelled function is part of each theorem, in every arithmetic (by unfolding). LGrad: each primitive with
  right-gradient operands has a right gradient (chain rule, reverse mode); LGrad2: the predicate `right_gradient` is
  closed under all primitives; LGrad3: the two triweight kernels at their joints; LGrad4-6: the functions. Gradients are
  in exact arithmetic. JAX's sharing of subterms (the tree repeats a value that is used twice) does not change the sum of
  the cotangents. Conditions of `where` are not differentiated.
* C164, C165: `MTrace2.v` has the traces of the SED pipeline and of the magnitudes (the positions at which `jnp.interp` is
  evaluated are constants there: t_obs, redshift, grids and wavelengths are not differentiated). LGrad7: the traces
  compute the pipeline, in every arithmetic; LGrad8-10: closure of right gradients under interpolation, cumulative sums,
  bin differences, the two normalizations (their totals are not 0 because the weights are finite) and the band integral.
  Demo4: the demonstration tables with every number scaled by the differentiated input.
* C166-C169: `MTrace3.v` has the traces of the cosmology functions, `MTrace4.v` those in which the positions of
  `jnp.interp` vary too (redshift, t_obs): the cell is chosen by `searchsorted` on values (not differentiated), the entries
  of the chosen cell are gathered. LGrad11-12: closure for the cosmology quadratures; LGrad13: near a point that is no node
  the chosen cell does not change, so the gather is locally constant; LGrad14: observed magnitude; LGrad15-16: birth times,
  age weights and SED; LGrad17: the composition (C169).
* C170-C172: `MTrace5.v` has the traces of the blackbody densities, power laws, effective wavelength and of the
  metallicity weights of a table at a moving time. LGrad18: C170, the closure lemmas of LGrad2 on each formula, and
  the NaN at temperature zero by evaluating the backward pass; LGrad19: C171, LGrad16 with the table rows of LGrad10;
  LGrad20: C172, composition of C171 with C166 and C167, and of C161 with C167.
* C156: `fits`/`stretch`/`bmap2` (Arr.v) model broadcasting; each call is rewritten to the stretched one (LBcast, LBcast2).
* C138: unfolding to the closed forms, with numeric bounds.
* C137: unfolding to the closed forms; positivity of the base curve up to 3.1 micron.

Nothing in the list was judged inexpressible. Full statement kept in view where only a
part is proved: see MANIFEST.json notes.
