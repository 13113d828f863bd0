(** The rules of Python by which a call or an attribute can fail, as far as pyTracer's code runs into them: the number of
    positional arguments, attributes of classes and modules, values which are not callable or not iterable, abstract
    classes.  The definitions of the other files state, with these, which call is made with what, instead of the error. *)
From Coq Require Import String List Bool Arith.
From Verif Require Import Base.
Import ListNotations.

(** Calling a function with [required] parameters without and [optional] with a default value, [given] positional
    arguments ([self] counted on both sides) *)
Definition py_call {A} (required optional given : nat) (value : res A) : res A :=
  if (required <=? given) && (given <=? required + optional) then value else Err TypeError.
(** Reading a property: Python calls the getter with [self] only *)
Definition py_property {A} (getter_parameters : nat) (value : res A) : res A := py_call getter_parameters 0 1 value.
(** Reading an attribute of an object, class or module whose attributes are [names] *)
Definition py_attr {A} (names : list string) (name : string) (value : res A) : res A :=
  if existsb (String.eqb name) names then value else Err AttributeError.
(** Calling an object whose class defines [methods] *)
Definition py_call_object {A} (methods : list string) (value : res A) : res A :=
  if existsb (String.eqb "__call__"%string) methods then value else Err TypeError.
(** Unpacking what a function returned; None is not iterable *)
Definition py_unpack {A} (x : option A) : res A := match x with Some a => Ok a | None => Err TypeError end.
(** isinstance(x, c): [c] must be a class, not a string ([is_class]) *)
Definition py_isinstance {A} (is_class : bool) (value : res A) : res A := if is_class then value else Err TypeError.
(** abc.ABCMeta: calling a class with an abstract method left undefined raises TypeError *)
Definition instantiate {A} (abstract defined : list string) (a : A) : res A :=
  if forallb (fun m => existsb (String.eqb m) defined) abstract then Ok a else Err TypeError.

(** ** Attribute tables of the classes and modules involved (numpy's are the names pyTracer uses which numpy has; the
    classes derived from numpy.ndarray also have the attributes of an array: those used in pyTracer are listed) *)
Local Open Scope string_scope.
(** the functions of numpy which pyTracer calls: every np.NAME in pytracer/ except np.scos (montecarlo/utility.py:220) and
    np.srqt (texture/utility.py:378), which numpy does not have *)
Definition numpy_names : list string :=
  ["array"; "sqrt"; "ndarray"; "inf"; "fabs"; "clip"; "sin"; "cos"; "random"; "pi"; "shape"; "power"; "deg2rad";
   "array_equal"; "empty"; "arange"; "eye"; "arctan2"; "isnan"; "linalg"; "sinc"; "log2"; "exp"; "full"; "sum"; "floor";
   "ceil"; "searchsorted"; "maximum"; "arccos"; "zeros"; "roots"; "multiply"; "minimum"; "fmax"; "tan"; "ndim"; "max";
   "dot"; "column_stack"; "argmin"; "true_divide"; "tile"; "round"; "repeat"; "float64"; "argsort"; "arctan"; "abs";
   "uint32"; "trapz"; "sort"; "prod"; "isclose"; "frompyfunc"; "fmin"; "concatenate"].
(** what instances and subclasses of numpy.ndarray inherit *)
Definition ndarray_names : list string := ["copy"; "dot"; "view"; "astype"; "shape"; "size"; "sum"; "min"; "max"; "any"; "all"].
(** geometry/__init__.py:198-278 (Normal), 15-95 (Vector): the same methods *)
Definition normal_names : list string :=
  ["__new__"; "__init__"; "from_arr"; "x"; "y"; "z"; "__eq__"; "__ne__"; "abs_dot"; "cross"; "sq_length"; "length";
   "normalize"] ++ ndarray_names.
(** geometry/__init__.py:15-95 *)
Definition vector_names : list string := normal_names.
(** light/light.py:28-115 (Light), 412-467 (DistantLight): methods and the attributes their constructors set *)
Definition light_names : list string :=
  ["__init__"; "__repr__"; "sample_l"; "sample_r"; "pdf"; "power"; "is_delta_light"; "le"; "l2w"; "w2l"; "ns"].
(** light/light.py:412-467 *)
Definition distant_names : list string := light_names ++ ["di"; "l"].
(** light/light.py:335-409 (GonioPhotometricLight) *)
Definition gonio_names : list string := light_names ++ ["pos"; "intensity"; "MIPMap"; "__scale"].
(** sampler/sample.py:16-76 (CameraSample, Sample) *)
Definition sample_names : list string :=
  ["__init__"; "__repr__"; "duplicate"; "add_1d"; "add_2d"; "imageX"; "imageY"; "lens_u"; "lens_v"; "time"; "n1D"; "n2D"; "oneD"; "twoD"].
(** shape/__init__.py:59-93: the abstract methods of Shape *)
Definition shape_abstract : list string := ["object_bound"; "refine"; "intersect"; "intersect_p"; "area"].
(** shape/cylinder.py:18-192 *)
Definition cylinder_methods : list string :=
  ["__init__"; "__repr__"; "object_bound"; "sample"; "intersect"; "intersect_p"; "area"].
(** texture/texturemap/__init__.py:22-35, 96-132 (CylindricalMapping2D) *)
Definition cylindrical_names : list string := ["__init__"; "__repr__"; "__call__"; "__cylinder"; "w2t"].
(** texture/texture/image.py:24-156 (ImageTexture) *)
Definition image_texture_names : list string :=
  ["TexInfo"; "textures"; "__init__"; "__call__"; "__convert__in__"; "__convert__out__"; "__clear__cache__"; "get_texture";
   "type_ret"; "type_mem"; "mapping"; "mipmap"].
(** spectral/spectrum.py:43-253, 549-607 *)
Definition spectrum_methods : list string :=
  ["__new__"; "__init__"; "__repr__"; "__eq__"; "__ne__"; "n_samples"; "c"; "create_from_array"; "create_from_list"; "create";
   "is_black"; "sqrt"; "exp"; "pow"; "lerp"; "has_nans"; "clip"; "y"; "from_sampled"; "from_rgb"; "from_xyz"; "to_xyz"; "to_rgb";
   "init"] ++ ndarray_names.
