# Formal model of zjiayao/pyTracer in Coq 8.16.1 - design

## 1. Approach

* **Model** (`rocq/theories/M_*.v`, `Base.v`): Gallina functions that mirror the Python functions branch by branch, in
  the order of the source.  Each definition has a comment with the file and lines it models, and says where it
  simplifies.
* **Specification** (`S_*.v`): the vocabulary of the theorems (what it means to lie on a sphere, to be a partition, to
  be the mean of a curve, ...), written without the model's helpers.
* **Proofs** (`P_*.v`) and **properties** (`Props_*.v`).  A property file holds only theorems named `Cnn_...`
  (nn = the id in `properties.jsonl`), each followed by `Print Assumptions`, and `Example`s showing that concrete,
  non-trivial cases meet the hypotheses.
* **Violations.**  pyTracer has many defects.  Where the unchanged code violates a property, `Cnn_..._refuted` proves it of
  the faithful model (a witness, or for all inputs if it always fails), and what does hold is `Cnn_..._partial`, under a
  hypothesis which the refutation shows to be needed.  Such a claim has status `partial` in `MANIFEST.json` and its note
  says what is missing.  A claim is `proved` only if every one of its theorems is unconditional in this sense.

## 2. Modelling decisions

| Python | model |
|---|---|
| exception | value `Err e` of `res A := Ok a | Err e`; `do x <- e; ...` is the sequencing of the source |
| calls that always raise | `M_Python`: Python's rules for argument counts, missing attributes and methods, properties called as methods, unpacking, `isinstance` and abstract classes, applied to tables of the signatures and attributes of /repo |
| float64 | Coq's reals `R`, exact (no rounding, no overflow); where IEEE infinities, NaN or the sign of zero decide the control flow: the extended type `E = Fin r | PInf | NInf | NaN` with IEEE comparison, min/max and division; a second model `M_Float`, `M_Float2` (properties C246-C258, C261-C269) repeats the functions in which a rounding error could change a choice (sample, pixel, byte, bucket, table entry, box test) with every operation rounded to binary64 by Flocq's `round` (nearest even, gradual underflow, no overflow) |
| numpy vectors, `Spectrum` (= `RGBSpectrum`) | triples `V3`; sampled spectra: lists of 30 reals |
| int, array index | `Z`/`nat`; Python's negative indexing is modelled where it can occur |
| `while` loops | recursion with fuel; the theorems show how much fuel always suffices |
| random numbers | explicit arguments, or a stream `nat -> R` with the position returned |
| mutable objects | values returned (`ray.maxt`), an explicit store (attribute stacks, film, BVH node array), or a thread-interleaving step relation (`M_FilmThreads`, `M_VoxelThreads`) |
| threads (`ThreadPool`, `Lock`) | small-step interleaving of reads, writes, acquire and release; a float addition `x += d` is a read followed by a write |
| textures, shapes as arguments | arbitrary functions, so that theorems hold for every one |
| scene, materials, lights, volume integrator seen by the integrators | a record `env` of arbitrary functions (`M_Integrator`); for whole scenes (C270-C273) `M_World.env_of` fills it with the modelled scene, materials and point lights; `M_World2.world_render` is the render of such a scene from camera to pixels (C275) |

## 3. Trusted base

* Coq 8.16.1's kernel (`coqc`; nothing is extracted, no plugin, no `native_compute` in proofs).
* The reading that ties `M_*.v` to the Python source, and numpy's/Python's documented semantics as written in the
  comments (e.g. `searchsorted`, `clip`, slicing, integer division, attribute lookup failing).
* `Print Assumptions` lists for each theorem a subset of these axioms, all from Coq's standard library:
@AXIOMS@
  No axioms of this development; no `Admitted`, no module types, functors or section-less variables.

### Not modelled
* Rounding: theorems speak about exact arithmetic.  A claim like "the hit point is on the sphere" is exact in the model.
* PIL's decoding and encoding (a picture is its shape and pixels), the file system (a file is present or not, or its
  lines), progress output, logging, numpy warnings, `__repr__`, `jit` decorators.
* `pytracer/data/*` are tables: the theorems hold for every table with the shape the code relies on.
* `examples/`, `tests/`, `setup.py`.
* `pytracer/utility/parser.py` and `pytracer/integrator/volume/__init__.py` are empty files.
* Python memory and object identity except where stated (transform stacks C49/C90, mesh references C114, light colours).

## 4. What is modelled, by file

| model | code |
|---|---|
@FILES@

## 5. Concurrency

`M_FilmThreads` compiles each worker's samples to the exact sequence of lock/read/write/unlock steps of
`ImageFilm.add_sample`/`splat` and interleaves any number of workers; `C200`, `C29` quantify over all schedules, prove that
no update is lost, that every schedule ends and that no deadlock occurs.  `M_VoxelThreads` does the same for the lazy
refinement in `aggregate.Voxel.intersect` (`C67`), with its double-checked flag.

## 6. Testing the theorems

`seeded/LOG.jsonl` records wrong programs: every operator, constant, argument order, branch and update in the model was
edited mechanically, one at a time, in a scratch copy, and everything depending on it was rebuilt; further ones were
written by hand.  Survivors led to tightened theorems (field `tightened`) or are equivalent programs / unreachable code
(field `note`).

## 7. Proof methods

Geometric facts: real algebra (`lra`, `nra`, `field`, `ring`) on the modelled formulas, and derivatives/integrals with
Coq's `Ranalysis`/`RiemannInt` and Coquelicot; lists, trees and loops: induction with invariants; BVH: a relational description
of well-formed node arrays, refined by construction and used by traversal; subdivision: an invariant on the pointer
structure preserved by each level; schedules: invariants over the step relation plus a commutation argument; refutations:
concrete witnesses evaluated in the model.

## 8. Plan per property
(`m:` model modules its theorems speak about; `s:` specification modules; `p:` the file with the theorems.)

