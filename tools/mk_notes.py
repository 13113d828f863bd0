#!/usr/bin/env python3
"""Write tools/notes.json: for every property with a _partial or _refuted theorem, what is proved and what is missing."""
import json, re, os
root=os.path.dirname(os.path.dirname(os.path.abspath(__file__)))
H={
"C03":"Faithful for every box with ordered corners. Missing (false of the code): the copy of the empty box is all of space; b != b is True unless b is one point.",
"C04":"Exact, with the exact interval, for all boxes and rays except that a zero direction component must not be IEEE -0.0 while the origin lies on a face plane of that axis; with -0.0 there the test misses (proved).",
"C07":"Total for the default method with max_prim <= 4. Missing (false of the code): 'middle' raises AssertionError, max_prim >= 5 raises TypeError, 'equal' raises AttributeError.",
"C10":"Proved for all primitive sets whose tree height fits the 64-entry stack (in particular up to 65 primitives) and rays without negative-zero components that do not lie on an x face plane. Missing (false of the code): deeper trees overflow the stack.",
"C11":"Proved except for rays parallel to the x slabs starting on an x face, and negative-zero components; both exceptions are real misses (proved).",
"C15":"Holds exactly for transforms whose linear part has no negative entry (that condition is shown necessary); false for e.g. rotations.",
"C16":"Position proved. Missing (false of the code): it is the inverse transform that carries +z to the viewing direction.",
"C17":"Motion bounds proved for pure translations; false for a non-animated transform.",
"C18":"slerp proved; conversion from a rotation matrix is wrong (proved).",
"C19":"All samplers but the frameless cone, which raises for every input.",
"C20":"Unit vectors of the upper hemisphere. Missing (false of the code): the cosine is uniform instead of having density 2z.",
"C22":"Continuous sampling proved for variates in (0,1], and for 0 if the first entry is positive; variate 0 with a leading zero entry gives NaN (proved).",
"C23":"Row index and density right away from the cumulative entries. Missing (false of the code): the second coordinate is the row index, and the density at a cumulative entry is another row's.",
"C26":"Windows containing pixel (0,0), tiles that divide the window. Missing (false of the code): crop windows starting later are dropped; a tile of fractional width runs past its window.",
"C29":"Narrow filters: safe when each pixel's samples belong to one thread and no sample lies on a pixel border; a border sample of the half-pixel box filter can lose another thread's update (proved). Wide filters: see C200.",
"C31":"Square images or crops that start at the top. Missing (false of the code): other vertical crops use the horizontal resolution.",
"C33":"The flag and ray.maxt are right; the record is that of the first primitive met, which need not be the nearest (proved).",
"C37":"Holds for faces whose second vertex index is the first plus one (the sampler reads vertex i+1, not the face's second vertex); otherwise it can sample another triangle or raise (proved).",
"C49":"Stacks, current set and graphics state restored; the transforms' contents are not (proved: begin/end have no effect on them).",
"C53":"Proved unless the radiance has components of both infinite signs; such a value reaches the film (proved).",
"C62":"Main ray only; the offset rays stay in the old space.",
"C65":"Hue and crop parts are false: channels are scaled separately, and a cropped render is never written (bytes and order: C204).",
"C66":"Terminates, in range, reports only real hits; misses hits because the step formula is misparenthesised (proved). It finds the nearest hit for rays starting in the box of a primitive they hit and for rays whose direction components are 1, or 0 with a negative coordinate, the only ones for which the formula is right.",
"C68":"Disks: the full and the shadow test agree, and the hit is right, except that a hit within the hole-centre region (squared radius at most the inner radius, e.g. the centre) raises; every cylinder hit raises (proved).",
"C69":"Holds for faces listing vertices 3f, 3f+1, 3f+2; otherwise the (u,v) of other vertices are used (proved); normals without tangents have no effect (proved).",
"C70":"Full disks: point. Missing (false of the code): partial disks, disk normals, spheres.",
"C73":"u proved; v leaves [0,1] for some spheres (proved).",
"C74":"Too large indices rejected; negative indices are accepted and wrap around (proved).",
"C76":"Identity exactly when the frame consists of world axes; false otherwise (l2w multiplies by the wrong matrix).",
"C77":"Holds when exactly one lobe matches (and the frame is the world's); false with two lobes.",
"C78":"Fraction up to index ratio 3; fails at 10, and the normal-incidence value is not Fresnel's.",
"C79":"Holds at normal incidence only; otherwise the ratio is inverted (proved for all other pairs).",
"C80":"Value and sampling of the transmission adapter; its density and the scaling adapter are wrong (proved).",
"C83":"False of the code: one cell only is ever read.",
"C84":"False of the code: a negative value on the other side (non-negativity on its own side: C81).",
"C85":"Holds unless the interval ends on a sample wavelength; then the average is over a longer interval (a constant 1 averages to 3).",
"C86":"Proved: bin i averages [400+10i, 410+300i] when that end is not a sample wavelength. Missing (false of the code): the right end should be 410+10i; the built-in tables integrate to the end of the table.",
"C87":"Right when red is smallest or for grey; wrong curves otherwise (proved).",
"C88":"Within a factor sqrt 2; not always the nearest power (proved).",
"C89":"An end with both stacks of its kind empty changes nothing (it only reports). Missing (false of the code): a pair of mismatched ends raises IndexError or leaves a transform on its stack.",
"C90":"A name gives back the same object; it is not a copy, so later changes show through (proved).",
"C93":"False of the code: calls before initialisation are accepted.",
"C94":"False of the code: transforms, names and stacks survive system_clean.",
"C95":"False of the code: importing raises NameError.",
}
out={}
ths={c['property']:c['theorems'] for c in json.load(open(root+'/MANIFEST.json'))['claims']}
for l in open(root+'/properties.jsonl'):
    p=json.loads(l); i=p['id']; t=ths.get(i,[])
    if not any(re.search('_(partial|refuted)$',x) for x in t): continue
    if i in H: n=H[i]
    else:
        has=[x for x in t if x.endswith('_partial')]; ref=[x for x in t if x.endswith('_refuted')]
        m=re.search(r'\(([^()]*(?:iolated|refuted|The code|Holds|olds for|true for|Evaluation|The y)[^()]*(?:\([^()]*\)[^()]*)*)\)',p['statement'])
        n=('Full statement false of the code: '+m.group(1)+'. ' if m else '')+('Refuted by '+', '.join(ref)+'. ' if ref else '')+('What holds: '+', '.join(has)+'.' if has else '')
    out[i]={"note":n}
json.dump(out,open(root+'/tools/notes.json','w'),indent=1)
