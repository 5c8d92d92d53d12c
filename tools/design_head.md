# Formal model of wcxve/elisa in Rocq (Coq 8.16.1)

The code under study is `/repo/src/elisa` (cited below as `data/…`, `models/…`, `infer/…`,
`util/…`, `plot/…`).  It is never run here: the only tie between code and model is the reading,
so every definition cites the file and lines it models, and every simplification is stated in
that comment.  This file is generated by `tools/gen_design.py` from `tools/design_head.md` (this part), the properties,
the manifest, the Coq files and `Print Assumptions`.

## Conventions

* Exceptions are values: `res A := Ok a | Err e` (file `Base.v`), one `err` constructor per
  Python exception class that matters.  Warnings are values too, where a property speaks of them.
* Arrays are lists; OGIP flags and integer counts are `Z`; indices and lengths are `nat`;
  floating-point values are modelled either by `Z` (where the code only adds and compares: any
  finite set of float64 values lies in `2^-1074 Z`, so `Z` in that unit loses nothing but rounding) or
  by the reals `R` (where the code divides, takes roots or logarithms).  Rounding is **not** modelled, and NaN and infinities only
  where a definition says so (an explicit case of its result).
* Dictionaries are association lists in insertion order; `put` replaces in place or appends, as a Python `dict` does.
  Strings are lists of characters.
* Python objects with identity (parameters, components, grouping flags, plot caches) are positions in a store; a property over
  histories is a theorem over all lists of operations, by induction, for the state machine whose steps are the public calls.
* Threads and processes (progress bars, shared counters) are interleavings of atomic steps given by an inductive relation.
* Loops are structural recursion or fuelled recursion whose out-of-fuel case is an explicit error that the theorems exclude.
* Libraries (NumPyro distributions, minuit, tinygp, arviz, emcee, XSPEC, JAX transformations …) enter as universally quantified
  functions, with the facts used about them as hypotheses *in the statement* (for example "`sf` is the survival function of the
  standard normal law"): never as axioms or section variables left open.
* Each area has a model file (definitions only), usually a proof file, and a `Prop_*.v` file that holds the statements: the specification
  vocabulary the statement needs, the theorem, `Print Assumptions`, and `Example`s that show that the hypotheses can be met.
* `_refuted` theorems are witnesses that a property as one would state it is false of the (faithful) model, that is, defects or
  undocumented limits of the code; where the set of bad inputs can be characterised, the theorem is an equivalence.
  `_partial` theorems prove a weaker or conditional version; what is missing is said beside them.

## How the proofs go

Grouping: loop invariants over "index lists 0 :: increasing < n", exchange arguments for optimality.  Scales: sums over concatenated
groups.  Statistics: concavity and the Gibbs inequality.  Data objects: state machines, invariants over call histories.
Expressions: printer/parser round trips by induction.  Spectral components: Coquelicot integrals and derivatives of the closed
forms, error terms of the quadratures.  Naming: injectivity of suffixing on strings.  Fits, samplers, results and plots: list
algebra, decision tables, interleavings.

## Trusted base

* Coq's kernel (`coqc` 8.16.1).
* The axioms that `Print Assumptions` reports, all from the standard library, abbreviated by one letter in the lists below:
  **F** `ClassicalDedekindReals.sig_forall_dec`, **N** `ClassicalDedekindReals.sig_not_dec`,
  **E** `FunctionalExtensionality.functional_extensionality_dep` (these three come with the real numbers of the standard library),
  **C** `Classical_Prop.classic` (comes with Coquelicot's integrals and the stdlib's analysis).  No axiom of any other library
  and none of our own.  `coqchk` additionally lists the opaque fields of the modules `Rdefinitions.RbaseSymbolsImpl`,
  `Rdefinitions.RinvImpl` and `ssr.ssrunder.Under_rel` of Coq itself: they are sealed definitions, not assumptions.
* The faithfulness of the model, as documented beside each definition, in particular: no floating-point rounding; the libraries
  behave as the quantified functions they are replaced by; Python's own semantics of lists, dictionaries, slices, properties and
  decorators as encoded.
* Testing of the statements: `seeded/LOG.jsonl` holds the deliberate bugs put in copies of the model and the theorems each one broke.
