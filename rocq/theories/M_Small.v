(** Model of small helpers: Transform equality and identity tests (transform/__init__.py), the Henyey-Greenstein
    density (montecarlo/utility.py) and the table of measured subsurface scattering data (volume/utility.py,
    data/volume.py). *)
From Coq Require Import Reals String List Bool.
From Verif Require Import Base M_Geometry M_Transform M_Spectrum M_Volume.
Import ListNotations.
Local Open Scope R_scope.

(** transform/__init__.py:45-46 (__eq__): numpy.array_equal of the matrices *)
Definition t_eq (t u : transform) : bool := M4_eqb (tm t) (tm u).
(** transform/__init__.py:48-49 (__ne__) *)
Definition t_ne (t u : transform) : bool := negb (M4_eqb (tm t) (tm u)).
(** transform/__init__.py:51-52 (copy) *)
Definition t_copy (t : transform) : transform := mkT (tm t) (tinv t).
(** transform/__init__.py:258-259 (is_identity) *)
Definition is_identity (t : transform) : bool := M4_eqb (tm t) I4.

(** montecarlo/utility.py:258-263 (hg_pdf) *)
Definition hg_pdf (w wp : vec) (g : R) : R := phase_hg w wp g.

(** data/volume.py:11-59 (MEASURED_SUF_SC), all rows *)
Definition measured_suf_sc : list (string * (vec * vec)) :=
  ([
   ("Apple", (mkV (229 / 100) (239 / 100) (197 / 100), mkV (3 / 1000) (17 / 5000) (23 / 500)));
   ("Chicken1", (mkV (3 / 20) (21 / 100) (19 / 50), mkV (3 / 200) (77 / 1000) (19 / 100)));
   ("Chicken2", (mkV (19 / 100) (1 / 4) (8 / 25), mkV (9 / 500) (11 / 125) (1 / 5)));
   ("Cream", (mkV (369 / 50) (547 / 100) (63 / 20), mkV (1 / 5000) (7 / 2500) (163 / 10000)));
   ("Ketchup", (mkV (9 / 50) (7 / 100) (3 / 100), mkV (61 / 1000) (97 / 100) (29 / 20)));
   ("Marble", (mkV (219 / 100) (131 / 50) 3, mkV (21 / 10000) (41 / 10000) (71 / 10000)));
   ("Potato", (mkV (17 / 25) (7 / 10) (11 / 20), mkV (3 / 1250) (9 / 1000) (3 / 25)));
   ("Skimmilk", (mkV (7 / 10) (61 / 50) (19 / 10), mkV (7 / 5000) (1 / 400) (71 / 5000)));
   ("Skin1", (mkV (37 / 50) (22 / 25) (101 / 100), mkV (4 / 125) (17 / 100) (12 / 25)));
   ("Skin2", (mkV (109 / 100) (159 / 100) (179 / 100), mkV (13 / 1000) (7 / 100) (29 / 200)));
   ("Spectralon", (mkV (58 / 5) (102 / 5) (149 / 10), mkV 0 0 0));
   ("Wholemilk", (mkV (51 / 20) (321 / 100) (377 / 100), mkV (11 / 10000) (3 / 1250) (7 / 500)));
   ("Lowfat Milk", (mkV (4563 / 5000) (2687 / 2500) (5 / 4), mkV (1 / 5000) (1 / 2500) (1 / 1250)));
   ("Reduced Milk", (mkV (43 / 40) (12213 / 10000) (13941 / 10000), mkV (1 / 5000) (1 / 2500) (1 / 1000)));
   ("Regular Milk", (mkV (5937 / 5000) (831 / 625) (7301 / 5000), mkV (1 / 10000) (3 / 10000) (13 / 10000)));
   ("Espresso", (mkV (547 / 1250) (1023 / 2000) (378 / 625), mkV (1669 / 10000) (2287 / 10000) (1539 / 5000)));
   ("Mint Mocha Coffee", (mkV (19 / 100) (13 / 50) (7 / 20), mkV (123 / 1250) (1519 / 10000) (51 / 250)));
   ("Lowfat Soy Milk", (mkV (1419 / 10000) (13 / 80) (137 / 500), mkV (1 / 10000) (1 / 2000) (1 / 400)));
   ("Regular Soy Milk", (mkV (1217 / 5000) (2719 / 10000) (4597 / 10000), mkV (1 / 10000) (1 / 2000) (17 / 5000)));
   ("Lowfat Chocolate Milk", (mkV (2141 / 5000) (2507 / 5000) (5791 / 10000), mkV (1 / 2000) (1 / 625) (17 / 2500)));
   ("Regular Chocolate Milk", (mkV (7359 / 10000) (2293 / 2500) (668 / 625), mkV (7 / 10000) (3 / 1000) (1 / 100)));
   ("Coke", (mkV (7143 / 10000) (1461 / 1250) (17169 / 10000), mkV (3483 / 5000) (287 / 250) (17169 / 10000)));
   ("Pepsi", (mkV (6433 / 10000) (999 / 1000) (721 / 500), mkV (51 / 80) (9849 / 10000) (721 / 500)));
   ("Sprite", (mkV (1299 / 10000) (1283 / 10000) (279 / 2000), mkV (123 / 1000) (597 / 5000) (653 / 5000)));
   ("Gatorade", (mkV (4009 / 10000) (837 / 2000) (1081 / 2500), mkV (1617 / 10000) (629 / 5000) (579 / 10000)));
   ("Chardonnay", (mkV (1577 / 10000) (437 / 2500) (439 / 1250), mkV (1547 / 10000) (1701 / 10000) (3443 / 10000)));
   ("White Zinfandel", (mkV (1763 / 10000) (237 / 1000) (2913 / 10000), mkV (433 / 2500) (1161 / 5000) (2847 / 10000)));
   ("Merlot", (mkV (7639 / 10000) (16429 / 10000) (4799 / 2500), mkV (3793 / 5000) (16429 / 10000) (4799 / 2500)));
   ("Budweiser Beer", (mkV (743 / 5000) (321 / 1000) (92 / 125), mkV (1449 / 10000) (3141 / 10000) (3643 / 5000)));
   ("Coors Light Beer", (mkV (59 / 2000) (663 / 10000) (1521 / 10000), mkV (67 / 2500) (38 / 625) (1521 / 10000)));
   ("Clorox", (mkV (4 / 25) (1 / 4) (33 / 100), mkV (7 / 400) (777 / 10000) (343 / 2500)));
   ("Apple Juice", (mkV (243 / 2000) (2101 / 10000) (4407 / 10000), mkV (507 / 5000) (929 / 5000) (1021 / 2500)));
   ("Cranberry Juice", (mkV (27 / 100) (63 / 100) (83 / 100), mkV (643 / 2500) (1229 / 2000) (1013 / 1250)));
   ("Grape Juice", (mkV (11 / 20) (5 / 4) (153 / 100), mkV (1357 / 2500) (5 / 4) (153 / 100)));
   ("Ruby Grapefruit Juice", (mkV (2513 / 10000) (3517 / 10000) (861 / 2000), mkV (56 / 625) (1911 / 10000) (659 / 2500)));
   ("White Grapefruit Juice", (mkV (3609 / 10000) (19 / 50) (352 / 625), mkV (6 / 625) (131 / 10000) (79 / 2000)));
   ("Shampoo", (mkV (18 / 625) (71 / 1000) (119 / 1250), mkV (23 / 1250) (149 / 2500) (161 / 2000)));
   ("Strawberry Shampoo", (mkV (217 / 10000) (197 / 2500) (511 / 5000), mkV (189 / 10000) (189 / 2500) (989 / 10000)));
   ("Head & Shoulders Shampoo", (mkV (1837 / 5000) (4527 / 10000) (5211 / 10000), mkV (883 / 10000) (1637 / 10000) (17 / 80)));
   ("Lemon Tea", (mkV (17 / 50) (29 / 50) (22 / 25), mkV (1301 / 5000) (2451 / 5000) (7727 / 10000)));
   ("Orange Juice Powder", (mkV (3377 / 10000) (5573 / 10000) (5061 / 5000), mkV (1449 / 10000) (3441 / 10000) (7863 / 10000)));
   ("Pink Lemonade", (mkV (6 / 25) (37 / 100) (9 / 20), mkV (233 / 2000) (1183 / 5000) (639 / 2000)));
   ("Cappuccino Powder", (mkV (1287 / 5000) (221 / 625) (121 / 250), mkV (24 / 125) (1327 / 5000) (409 / 1250)));
   ("Salt Powder", (mkV (19 / 25) (1737 / 2000) (9363 / 10000), mkV (1023 / 2000) (5863 / 10000) (6147 / 10000)));
   ("Sugar Powder", (mkV (159 / 2000) (1759 / 10000) (139 / 500), mkV (13 / 200) (1597 / 10000) (1289 / 5000)));
   ("Suisse Mocha", (mkV (2549 / 5000) (1619 / 2500) (993 / 1250), mkV (3 / 16) (2893 / 10000) (949 / 2500)));
   ("Pacific Ocean Surface Water", (mkV (6729 / 2000) (16579 / 5000) (8107 / 2500), mkV (6369 / 2000) (7831 / 2500) (30147 / 10000)))
  ])%string.
(** lookup of a dictionary with distinct keys *)
Fixpoint assoc {A} (k : string) (l : list (string * A)) : option A :=
  match l with [] => None | (k', a) :: l => if String.eqb k k' then Some a else assoc k l end.
(** volume/utility.py:67-77 (get_volume_scattering): the two returned values, None for an unknown name *)
Definition get_volume_scattering (name : string) : option vec * option vec :=
  match assoc name measured_suf_sc with
  | Some (a, b) => (Some (rgb_from_rgb a), Some (rgb_from_rgb b))
  | None => (None, None)
  end.
