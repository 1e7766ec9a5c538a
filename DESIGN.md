# Formal model of stephanwaz/raytools in Rocq (Coq 8.16.1)

## 1. Approach

The model is a set of shallow Gallina functions in `rocq/theories/`, one per
function of `/repo/raytools`, mirroring the code branch by branch. Each
definition cites the file and lines it models.

* **Numbers.** numpy float64 values are modelled by the real numbers `R` of the
  standard library (exact arithmetic). Rounding is *not* modelled except in
  the files that say so (binary64/binary32 through Flocq). Where the
  code can divide by zero or produce nan/inf the model either keeps an explicit
  case for it (`option`, or an extended value) or the theorem carries a
  hypothesis excluding it and the excluded case is listed here. No theorem relies
  on Coq's value of `x/0`.
* **Arrays.** A vectorised numpy expression over N rows is a per-row function and
  `map` over a list; 2-d images are a size and an index function, flat buffers
  are lists. In place mutation and aliasing are modelled where it is observable
  (the caller's array comes back as an extra result).
* **Exceptions** are values (`res A := Ok a | Raise e`).
* **External code** (pvalue/getinfo executables, scipy interpolation/KD-tree/
  filters, textwrap, random generators, executors) enters as a universally
  quantified function or relation with its specification as an explicit
  hypothesis of the theorem.
* **State**: the environment variable of io.py, the metric caches, the GSS
  object and the worker pool are transition systems; properties quantify over
  every history.

Layout: `Base*.v` helper definitions; `M_*.v` model only, no proofs; `S_*.v` small
independent specifications; `L_*.v` lemmas and proofs; `Prop_*.v` only theorems
closed by `exact`, each with a satisfiability `Example` and `Print Assumptions`.

If a property is false of the faithful model, the negation is proved with a
witness (`..._refuted`) and the strongest true part is proved next to it; such
properties have status `partial` in MANIFEST.json and are listed in section 4.

## 2. Plan per property

| id | modelled | proof |
|----|----------|-------|
| C01-C05 | uv2xyz, xyz2uv, uv2xy over R | case split on octants, sin/cos identities, atan2 lemmas |
| C06-C08 | uv2ij, uv2bin, bin2uv over R and Z; binary64 version | floor/mod arithmetic; Flocq error bound for binary64 |
| C09-C11 | skybin, tp, aa conversions | atan2/acos lemmas; refutation at the nadir |
| C12-C13 | chord2theta, theta2chord, ctheta, radians, degrees | asin/acos identities |
| C14-C15 | rmtx_yp, rmtx_elem, rotate_elem as 3x3 matrices | ring + sin2_cos2; polar caps explicit |
| C16-C18 | reflect, norm, norm1, xyz2xy | algebra |
| C19-C25 | ViewMapper/AngularMixin/Solid/Perspective as records | composition of the above |
| C26-C31 | Mapper base, index maps, image writes | integer arithmetic, floor |
| C32 | io env state machine | induction over call histories |
| C33-C34 | pool_call as labelled transition system | invariant over every schedule |
| C35-C36 | byte codec (32-bit words), image orientation | list/byte induction, index arithmetic |
| C37-C40 | rgb2rad, rgb2lum, rgbe2lum, is_hdr, load_txt | algebra / decision tables |
| C41-C44 | CleanHeader, header_items, hdr2vm | induction on header lines |
| C45-C49 | BaseMetricSet, MetricSet metrics over ray lists | list sums, Cauchy-Schwarz |
| C50 | PositionIndex | monotonicity bounds on exp |
| C51 | per-function one entry caches keyed by object | invariant over histories; which class defines a property decides what a read drops |
| C52-C55 | omega setter, stray loop, check_metrics, colour sets | list induction |
| C56-C58 | find_peak, normalize_peak, gather_strays | list sums over any sorting permutation |
| C59, C75 | imgmetric / cli metric decision logic | case analysis |
| C60-C65 | weighted_quantile (with weights, and as it is called without: M_Quantile), filter, cull_vectors, resample, simple_take | list induction |
| C66-C67 | retina functions | algebra, monotonicity |
| C68-C74 | GSS functions and object state | algebra, invariants |
| C76-C78 | solid_* functions, SolidViewMapper, transform_to with the interpolator as an oracle | composition of the projections; witnesses |
| C79, C88-C90 | in_view, framesize, area | inequalities, rounding lemmas |
| C80 | vxy2xyz with the caller's array as a second result | computation |
| C81-C83 | pixel areas, hdr2vol | list sums; rotation invariance of the cross product |
| C84-C85 | CleanHeader twice; the getinfo command line (shlex) | induction on lines and characters |
| C86-C87 | position index, glare formulas | derivative bounds; algebra |
| C91-C92 | weighted quantile; resample factor in binary64 (SpecFloat) | list sums; evaluation by the kernel of a closed term |
| C93-C94 | normalize_peak | list sums |
| C95 | meridian densities | interval bounds by lra |
| C96-C100 | pupil, point spread function, whole GSS pipeline | integrals (Reals), monotonicity, list induction, histories |
| C101 | result paths as strings; disk and schedule of reads and writes | string induction; permutation of schedules |
| C102 | imgmetric for two metric lists | case analysis over the classes |
| C103 | gss_compute | composition of C98-C100 |
| C104-C109 | array_rotate with scipy's regular grid interpolator | round trip of pixels and directions, rotation algebra, case analysis of the grid cell |
| C115 | the nine offsets, np.unique and numpy broadcasting of xyz2skybin | floors of U-t, U, U+t cover an interval for t <= 1 |
| C116 | the filter with rows and averaging methods; np.argsort is a parameter with the spec `orders`, the density a parameter | sums are invariant under permutation; C60 for the quantiles; the samples next to the coordinate in sorted data |
| C117 | the command from the rows of the file to the lines printed | C116 with the normal density; scaling laws; the witness for the density compares exp with 3 |
| C118 | the command lines of pvalue and getinfo and shlex.split | the splitter on plain words; its output is never longer than its input |
| C119 | hdr_header on the text getinfo prints; the programs are parameters with the spec `tools_read` | splitlines of joined lines; where a phrase can occur in the text |
| C120 | the command from the name to the picture written and the command line of getinfo | C36 for the pixels, C42 for the header, C118 and C119 |
| C121 | bin2uv, uv2ij and uv2bin on binary64 numbers (SpecFloat) | Flocq: each operation is the rounded real one; error bounds; nearest rounding near the edge |
| C122 | norm and norm1 on binary64 numbers | Flocq: error bounds for sum, root and quotient |
| C123 | the arguments of arccos, arcsin and sqrt on binary64 numbers | Flocq: rounding is monotone and keeps a root above the number it squares |
| C124 | set_raypath on strings, with the environment variable as a value | lists of directories; the first directory with the file |
| C125 | init_img of Mapper and ViewMapper: shapes, vectors, masks, header | row-major order of the pixels; round trips of C20, C21 and C24; parity shows that no pixel centre lies on the circle |
| C126 | uniform_filter with reflection at the edges | sums over the window; each pixel of the window counts once away from the edges |
| C127 | plot up to the call of array2hdr | C126 |
| C128 | hdr_solid2ang, hdr_rotate, hdr_ang2uv, hdr_uv2ang on header text and planes | last view of C41, round trip of C44 |
| C129 | array_ang2uv for two directions | world2view undoes view2world |
| C131-C132 | pool_call with a worker that dies; what goes on after an exception | invariant of the broken pool; termination measure; runs that cannot go on |
| C130 | illum and avglum on binary64 numbers, for every tree of additions | induction on the tree; Flocq: relative error and monotonicity of rounding |
| C42, C43, C84 with files inside files | the header reader as a zipper over the tree of files (S_Nested: trees of lines and files) | invariant of the zipper; induction on the tree |
| C133 | tpnorm and tp2xyz with the caller's array as a second result; whole numbers | reduction of angles; truncation |
| C134 | CleanHeader with Python's textwrap run for a number of steps | progress of each step; words back from chunks; the parser run over the cut lines; refutations by computation and by induction on the steps |
| C135 | the same, with the inset of a line as a list of levels | the depth and the stripped text of a line are all that is read of it; a table of all pairs of characters for the letters |
| C136 | scipy's gaussian_filter, uniform_filter and convolve with mirrored borders, as functions of the image (M_Ndimage); resample and the eye movements with them | weights that are the same to both sides keep the sum of a mirrored axis (shifts there and back together cover a period); the order of the axes is exchanged under the sums; the filters meet `filters_ok`, the assumption of C98, C99 and C103; the light of one pixel under the first eye movement is given exactly (S_Spot) |
| C137 | the whole score with scipy's filters (M_Gss, M_Ndimage); mirror images as a relation between lists of pixels (S_Mirror) | the arrays derived from the view are their own mirror images, each step keeps the relation, and sums do not see it; an odd kernel has its peak in the middle, because the spread function decreases and by C138; in an even one the mirror image of the first maximum would come before it |
| C138 | vxy2xyz and pixel2omega of M_Mapper and M_Io | cos of a square root is convex up to beyond half a turn, so the law of cosines on the sphere lies above the one in the plane; the cross product is at most the product of two chords |
| C139 | resample for arrays given by their shape and a function of the list of indices; operations along an axis (M_Resample) | the loops over the axes are nested functions of one axis each, by induction over the axes; sums over all indices are nested and exchanged with the sum of one axis; the model for images is the case of two axes |
| C140 | reading as a transition system: pvalue with two pipes of bounded capacity, raytools reading one of them; the text of the size line and of the bytes (M_Pipe); hdr_header reading both pipes of getinfo (M_Pipe2) | a measure that every step lowers, an invariant on what is printed, in the pipe and read; every beginning of the size line and of the data fails to parse or to reshape |
| C141 | writing as a transition system of raytools, pvalue and getinfo with two bounded pipes, with steps that kill a program (M_Pipe) | a measure and two invariants; a state without a next step has finished; hangs by invariants that no step leaves |
| C142 | the channels, weights and products of io.py:329-355 in binary64 (SpecFloat), the products added in any order, rounded first or fused with the addition (M_Lum64) | decoding is exact as all numbers are short multiples of powers of two; the error of a tree of additions and fused multiplications with the errors of the weights; no product of a pixel is subnormal |
| C143 | the polynomial of gss with its domain and window (M_Gss `weight`, `gss`) | mean value theorem; the derivative is negative on five intervals, by bounds of its Taylor coefficients; the exception by evaluation |
| C144 | f_b, l_b and psf_coef (M_Gss) | the denominators grow with the angle as every width but the last is below 1; the weight of the wide components as a function of age and pigmentation |
| C145 | dgp, ugr and the selection of sources (M_Metric) for two sets of rays | sources stay sources when the scale grows, so that pwsl2 grows with the square of the factor at least; the exponent 1.87 of the illuminance is below 2; two rays as a counterexample |
| C146 | construction and call of the three metric sets (M_Metric), stray rays and the omega correction included | two runs side by side: every selection is invariant under the factor, and every metric contains luminance and scale to the same power |
| C147 | construction and call of the three metric sets (M_Metric), the omega correction included | without rays at the edge the setter changes every ray by a function of sums over the rays, and every metric is a sum, a count or a maximum over a selection by ray; two rays at the edge in both orders refute the rest |
| C148 | PositionIndex, ViewMapper, construction and call of a metric set (M_Mapper, M_Metric) | in view space the height of a vector is determined by its products with the view direction and with the vertical, which are invariant; the position index depends on height, depth and length only; rays at the edge are left out |
| C149 | construction and call of a metric set (M_Metric) | induction over the subdivision: selections by direction and luminance commute with it, and all other metrics are sums linear in the solid angle, or maxima of luminances |
| C150 | construction and metrics of a metric set (M_Metric) | the common luminance factors out of all sums |
| C151 | sources, pwsl2, srcillum, dgp and ugr of a metric set (M_Metric) | fewer rays pass the filter, the sums have no negative terms |
| C152 | construction of metric sets (M_Metric) | induction on the insertion; witness with black rays beside the view |
| C153 | views, pixels, position index and construction of metric sets (M_Mapper, M_Metric), translate (M_Translate) | normalisation and arctan2 do not change with the length |
| C154 | imgmetric and normalize_peak (M_Imgmetric, M_Peak), the sort an argument that compares keys only, blur_sun of M_Retina | two runs side by side, then C146; witness of one bright ray |
| C155 | normalize_peak applied twice (M_Peak) | the source is one bright ray of at most the area given, which is merged into itself; witness of two rays |
| C156 | normalize_peak and secondary (M_Peak), a rotation or reflection any linear map that keeps the inner product | two runs side by side; induction on the recursion of gather_strays |
| C157 | normalize_peak and secondary (M_Peak), two sorts as arguments, equal keys in any order | the sorted list of bright rays is unique where keys are distinct; witness of a red and a green ray equally bright |
| C158 | normalize_peak and secondary (M_Peak), the sort an argsort of the keys as in the code | the result in terms of places in the list of bright rays |
| C159 | radians, degrees, theta2chord (M_Translate) | Gram determinant; induction on paths |
| C160 | cull_vectors (M_Data) with the lists of an ascending ball query on vectors | from C63: kept vectors are further apart than the tolerance; ascending lists are unique; witness of five vectors |
| C161 | weighted_quantile (M_Data), the sort an argument that compares data only | two runs side by side; witness of three data |
| C162 | non_uniform_gaussian_filter (M_Data), the sort an argsort of the coordinates | three runs side by side on data with two values each |
| C114 | the text of the view line | the two cases of the tolerance test |
| C112-C113 | the text printed by getinfo -d and the lines of a view file | words of a text, the round trip of C44 |
| C110-C111 | transform_to and array_solid2ang with the same interpolator | pixel round trip, radius lemmas of C76 |

## 3. Trusted base

* Coq's kernel (8.16.1); coqchk accepts the compiled files.
* The axioms of the standard library listed per theorem in section 5. No axiom is added, no kernel check is switched off,
  nothing is admitted, no functor or module type is defined, and no plugin beyond those of the standard distribution
  (lia, lra, nra, ring, field, btauto) is used.
* Flocq (a library of theorems on floating point arithmetic, no axioms of its own) in L_Float64.v, L_Bin64.v,
  L_Norm64.v, L_Angle64.v, L_Sum64.v and L_Lum64.v: it relates the executable operations of the standard library's SpecFloat to rounded real numbers. It is used
  in proofs only; the statements of C121 to C123, C130 and C142 mention SpecFloat and real numbers.
* The reading of scipy's RegularGridInterpolator (`rgi` in M_Rotate.v) from its documentation and source: cell search
  from the left, ties of the nearest method towards the lower grid point, extrapolation when fill_value is None.
* The reading of scipy.ndimage's gaussian_filter, uniform_filter and convolve (M_Ndimage.v, M_Data.v) from their documentation
  and source: mirrored borders, a Gaussian cut off at int(4 sigma + 0.5) values, kernels centred at size // 2.
* The reading of the Python source as the definitions in `M_*.v`, and of the English statements as the theorems in
  `Prop_*.v` with the specifications in `S_*.v`.

Modelled, by file of /repo/raytools:

| source | model | what is left out |
|--------|-------|------------------|
| translate.py | M_Translate, M_Data, M_Ndimage (filters of resample), M_Float, M_Bin64, M_Angle64, M_Skybin, M_Smooth, M_Dtype, M_Resample (any number of axes), M_Quantile | rounding (except M_Float, M_Bin64 and M_Angle64: bins, resampling factors, norm, the arguments of arccos and arcsin) |
| mapper/*.py | M_Mapper, M_Transform, M_Initimg (init_img, grow, plot) | names; jitter in Mapper.init_img |
| __init__.py | M_Raypath (set_raypath) | the operating system's environment |
| imagetools.py | M_Mapper (array_uv2ang, array_ang2uv), M_Header (hdr2vm), M_Io (hdr2vol), M_Peak, M_Imgmetric, M_Paths, M_Rotate (array_rotate), M_Transform (array_solid2ang), M_Viewfile (img_size, vf_to_vm), M_Convert (hdr_solid2ang, hdr_rotate, hdr_ang2uv, hdr_uv2ang) | files themselves (read and written through oracles) |
| io.py | M_Utility (process cap), M_Io (bytes, images, colour, is_hdr, load_txt), M_Header (CleanHeader, header_items, getinfo command), M_Wrap (line breaking), M_Tools (command lines of pvalue and getinfo, hdr_header), M_Pipe and M_Pipe2 (the pipes to pvalue and getinfo), M_Lum64 (rounding of rgb2rad, rgb2lum, rgbe2lum) | the pvalue/getinfo executables (oracles), textwrap.fill is an oracle (`fills`) in C42, C43 and C84; M_Wrap models it (Python's textwrap with its regular expression for words) for C134, where the two are connected by C134_model and C134_fills |
| utility.py | M_Utility (pool_call as a transition system), M_Pool (death of a worker) | progress bar output; start up of the workers |
| evaluate/basemetricset.py, metricset.py, colormetricset.py, positionindex.py | M_Metric, M_Cache, M_Sum64 (rounding of illum and avglum) | warnings; arrays of unequal length |
| evaluate/retina.py | M_Retina | nothing |
| evaluate/hvsgsm.py | M_Gss, M_Gsscmd, M_Ndimage (scipy's filters) | the theorems on the score hold for every filter with the properties stated in S_Gss (`filters_ok`), which C136_filters proves of M_Ndimage; nan after negative irradiance stops the model; writing of images (M_Paths has the paths) |
| cli.py | M_Imgmetric (metric), M_Paths (project, align, solid2ang, metric --gssimage), M_Smooth (smooth), M_Tools (cleanheader) | click option parsing; printconfig command |

Arithmetic is exact unless stated, so a theorem about numbers says what the formulas do, not what rounding does to
them. Oracles are quantified over with explicit hypotheses, each shown satisfiable by an Example (for instance
`filters_ok trivial_filters`, `fills`, `number_format`, `sorts_down`).

## 4. Findings: properties a user would expect that the code does not have

Each has a theorem with suffix `_refuted` (or a counterexample theorem named below) about the faithful model.

* **Directions.** tp/aa conversions send the nadir to the zenith (C10, C11); altitude/azimuth west of -90 comes back
  shifted by 360 (C11); rmtx_yp is only exact outside a tolerance band around the poles (C14, C19).
* **Views.** the chord factor shrinks the cone of views below 180 degrees, so in_view misses directions (C22), and square
  drawing raises IndexError there (C30); PerspectiveViewMapper is not a perspective projection and ignores the smaller
  angle (C25); SolidViewMapper converts angles twice (C77); transform_to converts in the opposite direction (C78);
  vxy2xyz changes the caller's array (C80); ViewMapper.idx2uv does not invert on other than square shapes (C27);
  Mapper.pixel2ray mirrors (C28); pixel jitter raises for almost every frame (C29); Mapper.in_view tests a box of size sf
  instead of bbox (C89).
* **Images and headers.** is_hdr is never true (C39); rgbe2lum wraps for uint8 (C38); hdr2vol loses half of the solid
  angles of 360 degree images (C82); CleanHeader keeps a view line that ends in a colon, mangles nested blocks, raises on a
  leading continuation, is not idempotent (C41, C42, C84); header_items returns an older value after a repeated line and
  mixes keys (C43); quotes and apostrophes in header lines break the getinfo command after the file was truncated (C85).
* **Pools.** thread workers ignore the cap (C34).
* **Metrics.** avglum and density are listed as safe to sum but are not (C45); illum is negative for light behind a 360
  degree view (C45); ugr and dgp are nan in the dark and ugr is inf when all rays are sources (C48); cached values stay
  after assignments (C51); construction overwrites the caller's omega and gives all stray rays the overlap of the last
  (C53); the overlap is too small for rays further inside than the common chord and for rays larger than the view (C53); BaseMetricSet.maxlum raises without rays (C54); the
  Kim index jumps at the view direction (C50_kim_jump).
* **Pipes.** hdr2array never reads the messages of pvalue, so a picture with more messages than the pipe holds (64 KiB on
  Linux) hangs the call (C140); carray2hdr of one or two channels with a header never returns, because pvalue's input is not
  closed while raytools waits for getinfo, and without a header returns with an incomplete file (C141); exit codes are ignored:
  when getinfo dies a small image is reported as written though the file is empty, and a large one hangs the call because raytools
  keeps the read end of the pipe open (C141). The old file is emptied before anything is written (io.py:143).
* **Data functions.** weighted_quantile ignores the weight of the smallest datum, depends on the order of ties and jumps
  down just below q = 1 (C60, C61, C91); the gaussian filter never sorts back (C62); cull_vectors depends on the order of
  the ball query (C63); mixed up and down scaling returns the input, nothing, or raises ZeroDivisionError (C64); down sampling 5 values to 3 returns all 5 (C64); down sampling 93 to 1 uses blocks of
  92 in float64 (C92).
* **Peaks.** a partly visible source takes the colour of its brightest ray (C94); pixels larger than the source absorb
  their neighbourhood (C93); the radius 0 raises IndexError (C56 note); the stray mean direction is not normalised (C58).
* **Eye.** the sign of x selects both meridians of the retina (C67); the foveal density multiplies one term only, so the
  meridians disagree at the fovea (C95); blur_sun is inf for a source without area (C66); the pupil opens with light from
  the age of 38.3 on (C96); a width of the point spread is negative for tiny pupils (C97); adaptation of dark pixels jumps (C74).
* **GSS objects.** arrays are stale after a new view with the same image size, a rejected image poisons the object, a
  black image keeps the old eccentricity, 360 degree views are never accepted (C72).
* **Commands.** gss_compute uses the view of the first image for all, fails when the first image is black and drops
  images when there are fewer illuminances (C103); imgmetric raises TypeError for irradiance without weights and
  ValueError for a bad header word, and peak normalisation of colour images ignores the weights (C59); metric prints three
  irradiance values under one name, prints a header and fails for an empty list, and fails for gss given twice (C75);
  align without options overwrites its image, results depend on the schedule when a result is also an input, and names
  collide for other extensions, directories with dots, outdir, fractional rotations, centres with four values, gss and
  gssnb (C101).
* **Rotation.** array_rotate samples a grid that is half a pixel off the pixel centres: the angle 0 blurs the image with
  the linear method, extrapolates to negative pixels, loses a row and a column with a fill value, and with the nearest
  method sits on a tie that any small angle breaks (C105, C107); rotate_first has no effect, the image is always centered
  first (C109). transform_to fails for 360 degree views (C110) and extrapolates to negative pixels at the rim (C111).
* **View files.** img_size fails for file names with blanks if a word of the name has an X or Y (C112). The header line of a 360 degree view
  is read back as its front half by vf_to_vm, which also rejects view lines without -vd that hdr2vm accepts (C113). The header
  of a view straight down has an up vector parallel to it (C114).
* **Sky bins.** xyz2skybin with a tolerance wraps to the opposite horizon at two edges of the sky, skips bins for
  tolerances above one bin, and accepts one or nine directions only (C115).
* **File names on command lines.** hdr2array, hdr2carray and hdr_header put the file name into a text and split it with
  shlex: a name with a blank is read as two files, one with an apostrophe raises ValueError, quotes and backslashes
  disappear. Names without these characters are the only ones that arrive (C118).
* **Header lines about RADIANCE.** The pattern that drops the first line of a header drops every line that mentions
  RADIANCE, such as SOFTWARE= RADIANCE 5.4; and a file whose header mentions "cannot open" is reported as missing (C119).
* **cleanheader.** Apostrophes in a header raise ValueError or are lost (the line then falls into pieces), and if nothing
  is left of a header getinfo is asked to add an empty line, which ends the header early (C120).
* **Rounding of bins.** With offset=0 the corner that bin2uv returns can round into the bin before: side 49, bins 1 and 49
  (C121). The default offset is safe for every side up to 2^25.
* **Huge and tiny vectors.** norm and norm1 square the components: vectors longer than 2^512 become 0, vectors shorter than
  2^-538 become infinite or nan in norm and stay as they are in norm1 (C122).
* **chord2theta.** Does not clip its argument (ctheta does). The distance of norm(1, 12, 34) and norm(-1, -12, -34) is 2 + 2^-51, and
  the angle between these opposite directions is nan (C123).
* **RAYPATH.** If RAYPATH is not set, importing raytools sets it to two directories, so that Radiance programs started
  afterwards no longer search their default directories (C124). If the path of the package contains a colon its
  directory is not searched (C124).
* **init_img.** With viewproj 'vte' a 360 degree view gets an image of two halves but vectors and a mask for one (C125);
  a view below 180 degrees gets a mask smaller than the image circle (C125); the vectors follow the inverse of the
  equisolid law, at 60 degrees they are off by more than 5 degrees (C125, as C77). SolidViewMapper.init_img by default
  returns a header with -vta and vectors of the other projection (C125). Mapper.init_img returns the vectors of the
  mirrored image (C125, as C28).
* **grow.** add_vecs_to_img with grow > 0 filters the image with reflecting edges: a vector in the corner pixel gives
  four times the value, overlapping squares add up, and what the image had before is smoothed and multiplied by
  (2 grow + 1)^2, even in planes whose value is None (C126).
* **After an exception.** pool_call does not shut its executor down: when a call raises, the later calls are still made, some of
  them started after pool_call has raised (C132).
* **Commands in headers.** A command that follows a command of the same program is taken for the rest of its line: what pcomb
  wrote below the header of a picture made by pcomb is joined to the line in that picture's header (C42_same_program_refuted).
  An empty file between two such lines keeps them apart, but it is dropped, and cleaning again joins them (C84_nested_refuted).
* **Angles as arrays.** tpnorm, and with it tp2xyz, overwrites the array it is given; for an array of whole numbers the reduced
  angles are truncated, so that 4 radians from the zenith is the zenith (C133).
* **The point spread function with an even window.** GSS.apply_psf puts what the window captures on the largest value of the kernel. When
  the window of fwidth degrees is an even number of pixels wide there are several equal ones and the first is taken, one row and one
  column before the one that scipy's convolve puts on the pixel: the image on the retina is moved by a pixel, and an image and its mirror
  image are treated differently (C137). With odd windows this does not happen.
* **Uniform smoothing with an even window.** resample(samps, gauss=False, radius=2) without a change of the size moves the image by half
  a pixel and changes its mean: the values 0, 1 become 0, 1/2 (C136_even_refuted). Odd windows and the Gaussian keep the mean.
* **Long header lines.** clean_header never returns when a line is longer than 150 characters and the text before its equals sign
  has 149 or more: textwrap, told to keep blanks, is given an indent that leaves no room and never drops a chunk (C134). With
  148 characters the lines have 151. The VIEW line is never cut. A long line that is cut at a hyphen, as in the name of a file,
  reads back with a blank behind the hyphen, so that header_items on a cleaned header finds another value (C134).
* **plot.** The plot of a 360 degree view does not show directions behind the view plane (C127).
* **Headers of converted images.** hdr_solid2ang writes a view along 0 1 0 from the origin whatever the source was; it reads the
  view angle of angular sources only, so that a source labelled -vts with 90 degrees is converted as 180 degrees; with
  reverse it labels the equisolid result -vta (C128). hdr_ang2uv leaves the -vta view of the source in the header of the
  square image (C128). Its option useview, meant to use the view direction, has no effect of that kind: the result is the
  same for all directions (C129).
* **The window of the point spread function.** GSS with psf and fwidth < 0.004 raises IndexError for every image: linspace has one
  point (C98).
* **imgmetric with further metrics.** Adding irradiance to a request for maxlum without weights raises TypeError; with peakn the
  value of maxlum changes when an irradiance metric is added (C102).
* **Rows without weight.** non_uniform_gaussian_filter falls back to interpolation where all weights vanish, but for two
  or more rows the weights of np.average have the wrong shape and it raises; median and quantiles of two or more rows always
  raise, because the data are flattened and the weights are not (C116). Without xr and without a band width there is no
  fall back either: the index of line 507 is a number there, so that samples that all have the same coordinate, for which
  the default width is 0, raise IndexError (C62_constant_refuted).
* **The width of smooth's density.** gaussian_kde multiplies its bw_method by the standard deviation of the data, smooth passes
  it a width: the density is smoothed with sigma times the standard deviation and depends on the unit of x (C117).
* **The position weight rises first.** The polynomial that gss multiplies the score with is a little larger at an eccentricity
  of 0.010 than on the line of sight (0.009), so that a source slightly off the line of sight counts more than one on it, by
  0.04 percent (C143_refuted); from 0.0103 on the weight falls.
* **A brighter background lowers dgp.** With the formula of metricset.py:179-201 a scene in which one ray gets brighter and the
  others stay as they are can get a lower dgp (C145_refuted); brightening all rays alike raises it (C145_dgp).
* **The order of rays at the edge of the view changes the metrics (C147_refuted).** Two bright rays that overlap the edge both get the
  overlap of the one that comes last (C53), so that exchanging them changes view_area and the averages.
* **Views straight up have a heading (C148_refuted).** ViewMapper takes +y for the upper end of a view along +z, so that turning the
  whole scene about the vertical changes the position index and all metrics that use it. Views that are not vertical do not have this.
* **A threshold of 101 can find glare that one of 100 does not (C151_refuted).** Up to 100 it is a multiple of the task luminance, above it
  is cd/m2: for an even scene of 200 cd/m2 raising it from 100 to 101 turns everything into a source and raises dgp.
* **Rays far out of view decide whether a ray at the edge counts (C152_refuted).** A ray at the edge is taken into the view if it is ten
  times brighter than the average of all rays given, also those out of view. Ten black rays beside the view bring a bright one in.
* **in_view and degrees take unit vectors for granted (C153_refuted).** A direction 60 degrees off a view of 90 degrees, given with length 2,
  is in view at 0 degrees. ray2pixel of the same view, and the metric sets, do not depend on the length.
* **Rays at the edge of the view.** Several theorems (C45, C53, C55, C147, C148, C149, C152) assume that no rays lie within one degree of the edge of the view. An image always has such rays. `Prop_Dim`, `Prop_Dim2` and `Prop_Dim3` restate these theorems for the condition that matters: no ray just outside the edge is brighter than ten times the average luminance of all rays. C150 needs no condition at all, as with one luminance nothing is bright.
* **The blur correction ignores scale (C154).** `find_peak` compares luminance with `peakt / scale`, but hands the luminance of the source to `blur_sun` as it is. There it is compared with 279.33, which is right for images in W/sr/m2 only (`scale=179`). An image in cd/m2 with `scale=1` gets a larger source than the same image in radiance units. `C154_refuted` has one ray of 100 (scale 10) and of 1000 (scale 1): only the second is enlarged.
* **normalize_peak is not idempotent (C155).** When the rays around the peak hold more energy than the source needs, only the first of them are consolidated, and the others stay as bright as before. They can be brighter than the new source. A second call consolidates them in turn. `C155_refuted` has two pixels of 10 and 8 whose source gets 3.2: the second call turns the pixel of 8 into a source of 6.4.

* **The source depends on the order of equally bright pixels (C157).** find_peak consolidates a prefix of the
  sorted bright rays. Where the limit falls between rays of equal luminance (a clipped, saturated sun), which of
  them are consolidated depends on the order of the pixels and on the sort: reversing a red and a green ray that
  are equally bright changes the source from red to green. np.argsort is called without kind='stable'.

* **A larger tolerance can keep more vectors (C160).** cull_vectors keeps the first vector of each neighbourhood.
  With a larger tolerance a vector may be culled that culled several others, which then stay: of (0,0,11), (0,0,0),
  (10,0,0), (-10,0,0) and (0,10,0) a tolerance of 10 keeps two vectors and a tolerance of 12 keeps four.

* **The weighted median is not symmetric (C161).** weighted_quantile subtracts the first cumulative weight, so each
  weight belongs to the interval before its datum. The median of 0, 1, 3 with the weights 1, 2, 1 is 0.75; the
  median of 0, -1, -3 with the same weights is -1.5 rather than -0.75.

## 5. Axioms, by Print Assumptions

Generated by `tools/gen_axioms.py` from the output of `Print Assumptions` beneath each theorem. All axioms are
from Coq's standard library (the classical real numbers of `Reals`, functional extensionality and excluded middle).

**No axioms** (closed under the global context) -- 134 theorems:
C63_maximal_partial, C63_order_refuted, C92_factor_refuted, C65_select, C65_error, C121_roundtrip_refuted, C122_large_refuted, C122_tiny_refuted, C103_empty_refuted, C41_last_view, C41_no_other_partial, C41_one_view_refuted, C41_no_pvalue_refuted, C42_flat_partial, C42_blocks_partial, C42_nesting_refuted, C42_once_refuted, C42_total_refuted, C43_length, C43_last_value_partial, C43_last_value_refuted, C43_other_key_refuted, C43_key_twice_refuted, C84_idempotent_partial, C84_idempotent_refuted, C85_header_args_partial, C85_quotes_refuted, C85_apostrophe_refuted, C85_empty_refuted, C75_rows, C75_empty_refuted, C135_spaces, C135_letters, C35_bytes_roundtrip, C35_bytes_roundtrip_unknown_dim, C35_bytes_layout, C35_wrong_length_raises, C35_file_append, C36_gray_roundtrip, C36_gray_orientation, C36_color_roundtrip, C39_is_hdr_refuted, C39_is_hdr_result, C40_load_txt, C80_sequence_argument_kept_partial, C45_accepted, C54_check_metrics, C54_check_raises, C42_nested_partial, C42_same_program_refuted, C43_nested_partial, C84_nested_partial, C84_nested_refuted, C140_read, C140_read_color, C140_any_output, C140_cut, C140_cut_color, C140_beginning, C140_messages_refuted, C141_written, C141_beginning, C141_channels_refuted, C141_channels_unreported_refuted, C141_many_channels_refuted, C141_killed_unreported_refuted, C141_killed_hangs_refuted, C140_header, C131_outcome, C131_none_lost, C131_calls, C131_goes_on, C131_ends, C132_returned, C132_raised_refuted, C132_all_made, C124_set_partial, C124_directories, C124_unset, C124_again, C124_default_refuted, C124_colon_refuted, C118_arguments_partial, C118_arguments_refuted, C118_blank_refuted, C118_apostrophe_refuted, C118_read_partial, C118_commands_partial, C119_lines_partial, C119_kept, C119_radiance_refuted, C119_missing, C119_rejected, C119_cannot_open_refuted, C120_pixels, C120_header_partial, C120_empty_refuted, C120_apostrophe_refuted, C120_quotes_refuted, C32_last_cap_wins, C32_reset_gives_cpu_count, C32_without_effective_call, C32_cases_cover_every_history, C32_no_effect_keeps_state, C32_rejects_exactly_other_types, C32_argument_wins, C32_environment_number, C32_environment_other_text, C33_pool_equals_loop, C33_no_workers_equals_loop, C33_loop_outcome_unique, C33_every_run_ends, C33_never_stuck, C33_each_call_at_most_once, C33_all_calls_made_on_return, C33_unpackable_is_needed, C34_process_cap_partial, C34_bad_cap_rejected, C34_thread_cap_refuted, C34_threads_selected, C34_processes_selected, C34_no_pool_selected, C112_size, C112_blank_name_refuted, C134_lines_partial, C134_words_partial, C134_again_partial, C134_ends_refuted, C134_width_refuted, C134_view_refuted, C134_hyphen_refuted, C134_fills, C134_model, C134_fuel.

`ClassicalDedekindReals.sig_forall_dec`, `FunctionalExtensionality.functional_extensionality_dep` -- 96 theorems:
C161_data, C161_weights, C161_sign_refuted, C123_chord_refuted, C60_in_range, C60_ends, C60_equal_weights_partial, C60_equal_weights_refuted, C61_monotone_partial, C61_monotone_refuted, C91_median_refuted, C91_first_weight_unused, C91_tie_order_refuted, C62_range, C62_gap, C62_order_partial, C64_up, C64_down_any, C64_smooth, C64_shape_refuted, C64_down, C64_down_undoes_up, C64_mixed_refuted, C122_zero, C70_weight, C97_kernel, C37_lum_is_179_rad, C37_rad_linear, C37_rad_average, C38_nonneg_zero, C38_monotone, C38_exponent_doubles_partial, C38_exponent_doubles_refuted, C162_linear, C27_idx_roundtrip, C27_jitter_offsets, C27_view_idx_square, C27_view_idx_two_squares, C27_view_idx_roundtrip_refuted, C29_pixel_centers, C29_jitter_inside_partial, C29_jitter_refuted, C30_base_draw, C80_base_argument_kept_refuted, C81_pixel_areas_sum_to_area, C88_framesize, C45_illum_held, C45_linear_lum, C45_linear_scale, C46_gcr_ge_1, C46_gcr_uniform, C46_gcr_lum, C46_gcr_scale, C50_kim_defined, C136_kernel, C101_results_partial, C101_own, C101_distinct, C101_label, C101_align_label, C101_align_distinct, C101_outdir_partial, C101_align_refuted, C101_order_refuted, C101_extension_refuted, C101_dot_refuted, C101_outdir_refuted, C101_rotate_refuted, C101_center_refuted, C101_gssimage_refuted, C60_unweighted, C60_outside, C60_none_included, C60_no_weight, C66_spread, C66_defaults, C116_mean, C116_range, C116_rows, C116_fallback, C116_gap_refuted, C116_quantiles, C116_median, C116_median_rows_refuted, C116_rejects, C116_self, C67_far, C59_pvalue, C88_half, C06_uv2ij_range, C06_uv2bin_range, C07_bin_roundtrip, C07_bin2uv_injective, C08_bin_is_cell, C08_top_edge_wraps, C143_ends.

`ClassicalDedekindReals.sig_forall_dec`, `ClassicalDedekindReals.sig_not_dec`, `FunctionalExtensionality.functional_extensionality_dep` -- 102 theorems:
C155_again_partial, C155_area, C160_again, C160_moved, C160_tolerance_refuted, C158_peak, C158_secondary, C133_value, C133_tpnorm, C133_kept_partial, C133_kept_refuted, C133_again, C154_peak_partial, C68_weights, C68_widths, C97_small_pupil_refuted, C125_base, C83_omega_nonneg, C156_peak, C156_secondary, C26_mapper_uv_roundtrip, C26_mapper_xyz_roundtrip, C28_pixel_roundtrip_mirrored_partial, C28_pixel_roundtrip_refuted, C89_in_view, C89_bounding_box_refuted, C136_filters, C136_up, C136_down, C136_smooth_partial, C136_even_refuted, C136_mirror_up, C136_mirror_down, C136_mirror_gauss, C136_spot, C56_energy, C94_channels_partial, C57_removed, C57_unchanged, C57_direction, C58_groups, C58_none, C93_luminance_partial, C136_eye, C139_up, C139_down, C139_up_mean, C139_down_mean, C139_smooth, C139_none, C139_axes, C139_one_number, C139_image, C64_mixed_step_refuted, C66_inverse, C66_blur, C66_monotone, C66_one_degree, C66_no_area_refuted, C67_positive, C67_symmetric, C67_between, C67_quadrant_partial, C67_above_below_refuted, C95_fovea_refuted, C66_outside, C144_age, C144_pigment, C157_peak_partial, C157_secondary_partial, C88_box, C81_box, C93_tolerance_above_one, C70_odds, C01_uv2xyz_unit, C01_uv2xyz_hemisphere, C05_uv2xy_radius, C05_uv2xy_lifts_to_uv2xyz, C10_tp2xyz_unit, C10_tpnorm_range, C11_aa2xyz_unit, C11_nadir_refuted, C15_rotation, C15_isometry, C15_additive, C15_inverse, C15_fixes_axis, C15_degrees, C15_orientation, C16_isometry, C16_involution, C16_fixes_plane, C16_negates_normal, C16_valid, C16_all_pairs, C16_masked_all, C17_norm_unit, C17_norm_direction, C17_norm_idempotent, C17_norm_scale, C17_norm1_nonzero, C17_norm1_zero.

`ClassicalDedekindReals.sig_forall_dec`, `Classical_Prop.classic`, `FunctionalExtensionality.functional_extensionality_dep` -- 2 theorems:
C126_base_partial, C127_base.

`ClassicalDedekindReals.sig_forall_dec`, `ClassicalDedekindReals.sig_not_dec`, `Classical_Prop.classic`, `FunctionalExtensionality.functional_extensionality_dep` -- 409 theorems:
C155_refuted, C123_norm, C123_tau, C123_ring, C123_ctheta, C123_accurate, C123_accurate_theta, C123_accurate_tau, C145_dgp, C145_ugr, C145_same, C145_refuted, C128_solid2ang_partial, C128_source, C128_direction_refuted, C128_equisolid_angle_refuted, C128_reverse_refuted, C128_rotate, C128_square_refuted, C128_uv2ang, C129_direction, C129_useview_refuted, C62_order_refuted, C152_seen_partial, C45_illum_dim_partial, C45_pwsl2_dim_partial, C45_srcillum_dim_partial, C53_dim_partial, C147_dim_partial, C148_dim_partial, C149_dim, C152_color_seen_partial, C147_color_dim_partial, C55_dim, C45_illum_light_partial, C45_avglum_light_partial, C45_safe_dim_partial, C45_irradiance_dim_partial, C45_nonneg_dim_partial, C133_whole_partial, C133_whole_refuted, C154_metrics_partial, C154_refuted, C121_roundtrip_partial, C121_cell, C121_order, C122_unit_partial, C69_range, C69_irradiance, C69_adaptation, C69_half, C70_responses, C70_score, C71_bins, C71_once, C71_widths, C72_partial, C72_new_size_partial, C72_view_refuted, C72_rejected_refuted, C72_black_refuted, C72_full_view_refuted, C73_range, C73_view, C73_centre, C74_mean, C74_same, C74_dark_refuted, C96_range, C96_closes_partial, C96_closes_refuted, C96_age_refuted, C97_component, C97_total, C97_positive, C98_partial, C98_accepted, C98_window_refuted, C98_coarse_partial, C98_captured_partial, C99_uniform, C99_same, C100_history, C103_own_partial, C103_first_partial, C103_view_refuted, C103_black_refuted, C103_illums_refuted, C44_view_roundtrip, C44_options, C44_no_view, C114_up_vector, C114_up_vector_refuted, C59_luminance_partial, C59_color_partial, C59_default_refuted, C59_header_refuted, C59_peak_refuted, C59_unknown_name, C102_irradiance_partial, C102_default_refuted, C102_peak_refuted, C102_values, C75_columns_partial, C75_irradiance_refuted, C75_repeated_refuted, C125_labels, C125_other_labels, C125_rejected, C125_angular, C125_full, C125_square, C125_equisolid_partial, C125_full_equisolid_refuted, C125_equisolid_law_refuted, C125_narrow_equisolid_refuted, C125_solid_class_refuted, C126_view_partial, C126_full_partial, C126_planes_partial, C126_no_growth, C126_edge_refuted, C126_overlap_refuted, C126_content_refuted, C126_skipped_plane_refuted, C127_view, C127_full_partial, C127_behind_refuted, C82_hdr2vol_aligned_partial, C82_hdr2vol_360_refuted, C83_omega_rotation_invariant, C83_omega_mirror, C83_omega_transpose, C83_omega_on_axis, C83_omega_centre, C153_metrics, C153_color, C153_views, C153_translate, C153_refuted, C151_sources, C151_dgp, C151_ugr, C151_refuted, C142_channel, C142_radiance, C142_luminance, C142_pixel, C142_black, C142_brighter, C19_view_world_inverse, C19_view_world_rigid, C19_view_direction_to_z_partial, C19_view_direction_near_z, C19_view_direction_to_z_refuted, C20_uv2xyz_unit, C20_uv_roundtrip, C20_uv_roundtrip_360, C20_xyz_roundtrip, C20_center_is_view_direction, C21_pixel2ray_unit, C21_pixel_roundtrip, C21_pixelrays_roundtrip, C21_ray_roundtrip, C22_in_view_sound_partial, C22_in_view_complete_partial, C22_in_view_180, C22_in_view_exact, C22_in_view_complete_refuted, C23_front_half, C23_back_half, C23_pixelrays_two_halves, C23_roundtrip_front, C23_roundtrip_back, C24_solid_roundtrip, C24_solid_view_angle, C25_perspective_is_tan_refuted, C25_smaller_angle_ignored_refuted, C25_limit, C30_view_draw, C30_view_draw_360, C30_view_draw_mask, C30_view_draw_channels, C30_square_draw_180, C30_square_draw_360, C30_square_draw_refuted, C31_ang2uv_in_range, C31_ang2uv_360, C31_uv2ang_square, C31_uv2ang_two_squares, C31_uv2ang_other_shapes, C76_solid2ang_radius, C76_ang2solid_radius, C77_solid_is_equisolid_refuted, C78_transform_reads_same_direction_partial, C78_transform_direction_refuted, C79_in_view_is_image_circle, C79_uv_square_in_view, C79_in_view_pixel_in_image, C80_value_independent_of_argument_kind, C80_array_argument_kept_refuted, C90_cone, C90_sphere, C45_safe_partial, C45_illum_rays_partial, C45_pwsl2_rays_partial, C45_srcillum_rays_partial, C45_irradiance_rays_partial, C45_illum_lum_partial, C45_avglum_lum_partial, C45_nonneg_partial, C45_avglum_rays_refuted, C45_density_rays_refuted, C45_density_lum_refuted, C45_pwsl2_lum_refuted, C45_srcillum_lum_refuted, C45_nonneg_360_refuted, C46_pwgcr_ge_1, C46_loggcr_ge_0, C46_logpwgcr_ge_0, C46_pwgcr_uniform, C46_pwgcr_lum, C46_pwgcr_scale, C47_dgp_range, C47_dgp_ge_16, C47_lowlight, C47_dgp_mono, C47_dark, C48_ugr_range_partial, C48_ugp_range_partial, C48_ugr_no_source_partial, C48_ugp_mono, C48_dark_refuted, C48_all_source_refuted, C48_all_source, C49_split, C49_area, C49_illum, C49_backlum, C49_threshold_absolute, C49_threshold_task, C49_no_task, C50_guth_range, C50_ahead, C50_behind, C50_kim_positive, C50_kim_jump, C86_grows, C86_mirror, C86_length, C86_view, C51_history_partial, C51_reads, C51_stale_refuted, C51_stale, C51_kept, C51_dropped, C52_corrects, C52_area, C52_keeps, C53_clipped_partial, C53_arguments_partial, C53_arguments_refuted, C53_own_overlap_refuted, C54_call_base, C54_call_metric, C54_call_unknown, C54_call_color, C54_empty_maxlum_refuted, C55_illum, C55_rows, C55_plain, C87_dgp, C87_ugr, C87_illum, C53_short_refuted, C137_partial, C137_even_refuted, C137_peak, C137_peak_refuted, C138_close, C138_largest, C136_light, C147_order_partial, C147_color_partial, C147_refuted, C94_channels_refuted, C93_luminance_refuted, C67_decreasing, C67_quadrant_refuted, C104_turned, C104_gradient, C104_rejected, C105_nearest_partial, C105_linear_averages, C105_linear_refuted, C105_fill_refuted, C105_small_angle_refuted, C106_quarter, C106_four_quarters, C107_range_with_fill, C107_nearest_values, C107_constant, C107_default_range_refuted, C108_centre, C108_align, C109_order_refuted, C109_centre_first, C109_rotate_first_refuted, C144_angle, C144_even, C115_near_partial, C115_own, C115_sorted, C115_no_tolerance, C115_edge_refuted, C115_gap_refuted, C115_rows_refuted, C117_values, C117_range, C117_units, C117_zero, C117_zero_columns_refuted, C117_density, C117_width_refuted, C117_density_units_refuted, C62_constant_refuted, C149_metrics, C149_counts, C130_illum, C130_avglum, C130_orders, C130_brighter, C157_refuted, C71_geometric, C69_odds, C110_same_view, C110_gradient, C110_linear, C110_nearest_values, C110_full_view_refuted, C111_solid2ang, C111_ang2solid, C111_nearest_values, C111_rejected, C111_range_refuted, C02_uv_roundtrip_flipped, C02_uv_roundtrip_upper, C02_uv_roundtrip_lower_is_mirrored, C03_xyz_roundtrip_flipped, C03_xyz_roundtrip_upper, C03_xyz_roundtrip_lower_is_mirrored, C03_axes, C04_xyz2uv_range, C04_xyz2uv_normalize, C09_skybin_roundtrip, C09_skybin_below_horizon, C10_tp_roundtrip_partial, C10_tp_roundtrip_in_caps, C10_xyz_roundtrip_partial, C10_xyz_roundtrip_error, C10_xyz_roundtrip_refuted, C11_aa_roundtrip_partial, C11_aa_roundtrip_west, C11_aa_roundtrip_refuted, C11_xyz_aa_roundtrip_partial, C12_theta_chord_theta, C12_chord_theta_chord, C12_chord_is_distance, C13_radians_range, C13_radians_symmetric, C13_radians_zero, C13_radians_pi, C13_cosine, C13_degrees, C14_rmtx_yp_rotations, C14_rmtx_yp_reversible, C14_rmtx_yp_maps_to_z, C14_rmtx_yp_maps_near_z, C14_rmtx_yp_z, C14_rmtx_yp_minus_z, C14_rmtx_yp_exact_everywhere_refuted, C18_fisheye_radius, C18_fisheye_azimuth, C18_flip_mirrors, C159_radians, C159_degrees, C159_path, C159_circles, C159_chord, C159_moved, C148_positions, C148_metrics_partial, C148_refuted, C150_averages, C150_glare, C146_units, C146_color, C152_rays_partial, C152_color_partial, C152_refuted, C113_roundtrip, C113_options, C113_none, C113_no_direction, C113_full_view_refuted, C143_falls_partial, C143_nearly, C143_refuted.
