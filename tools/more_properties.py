p("C76", "equisolid to angular conversion samples the right radius",
  "array_solid2ang and array_ang2solid of a 180 degree image sample, for every pixel, the source at the same azimuth and at the radius given by the equisolid law r = sin(theta/2)/(2 sin(45 deg)), to within 1e-9 of the image width.",
  "every pixel position of the image circle, every view direction", "continuum of positions; the code's 1e-9 guard term is part of the claim",
  f"{VM}:ViewMapper.solid_vxy2xyz", f"{VM}:ViewMapper.solid_xyz2vxy", f"{IT}:array_solid2ang", f"{IT}:array_ang2solid")
p("C77", "SolidViewMapper pixels follow the equisolid projection",
  "the distance from the image centre of SolidViewMapper.xyz2vxy(v) is proportional to sin(theta/2) where theta is the angle between v and the view direction.",
  "every direction in view", "continuum", f"{SV}:SolidViewMapper.xyz2vxy")
p("C78", "transform_to converts from self to other",
  "ViewMapper.transform_to(img, other) takes an image in the projection of self and returns the image in the projection of other: every output pixel has the value of the input at the pixel that self assigns to the output pixel's direction, zero when out of view.",
  "every pair of views, image and interpolator reproducing affine images", "all images and views", f"{VM}:ViewMapper.transform_to")
p("C79", "in_view is the inscribed circle of the image",
  "ViewMapper.in_view(v) holds exactly when xyz2vxy(v) lies strictly inside the circle inscribed in the image square; the pixel of every accepted direction is a valid index, and every direction of the uv square is accepted.",
  "every unit direction, view direction and view angle up to 180", "continuum", f"{AM}:AngularMixin.in_view", f"{AM}:AngularMixin.xyz2vxy")
p("C80", "vxy2xyz leaves its argument unchanged",
  "calling vxy2xyz does not modify the array passed in, and its result does not depend on whether an array or a nested sequence was passed.",
  "every argument list and both argument kinds", "all arrays; aliasing", f"{AM}:AngularMixin.vxy2xyz", f"{M}:Mapper.vxy2xyz")
p("C81", "pixel areas of the base mapper sum to the mapped area",
  "Mapper.pixel2omega summed over all pixels of framesize(res) equals the area of the mapper's bounding box.",
  "every mapper and resolution", "unbounded resolution", f"{M}:Mapper.pixel2omega", f"{M}:Mapper.framesize")
p("C82", "hdr2vol rows belong together",
  "hdr2vol returns one direction, one solid angle and one value for each pixel of the image, in the same order.",
  "every image size, content and view", "unbounded image sizes; alignment of three arrays", f"{IT}:hdr2vol", f"{AM}:AngularMixin.pixelrays", f"{M}:Mapper.pixels")
p("C83", "pixel solid angles do not depend on where the view points",
  "ViewMapper.pixel2omega is non-negative, the same for every view direction, and symmetric under mirroring and transposing the image; on the horizontal axis it is 4 sin(h) sin(rho) h / rho for half pixel angle h and rho the distance, in angle, of the axis to the upper edge of the pixel.",
  "every view direction, angle, resolution and pixel position", "continuum", f"{AM}:AngularMixin.pixel2omega")
p('C84', 'cleaning a header is idempotent',
  'clean_header(clean_header(h)) == clean_header(h).', 'every header text', 'all header texts', f'{IO}:CleanHeader', f'{IO}:clean_header')
p('C85', 'header lines reach the image unchanged',
  'array2hdr(a, f, header) and carray2hdr pass every header line to getinfo -a as exactly one argument with exactly its characters.',
  'every list of header lines', 'all strings, including quotes and backslashes', f'{IO}:array2hdr', f'{IO}:carray2hdr')
p('C86', 'the position index grows with eccentricity',
  'PositionIndex().positions never decreases when a direction moves away from the view direction at constant azimuth, is the same for left and right, does not depend on the length of the vector and depends only on where the direction is in the view.',
  'every view, azimuth and pair of angles', 'continuum; joins of the two formulas at the horizon', f'{PI}:PositionIndex.positions')
p('C87', 'glare metrics follow the published formulas',
  'illum is the cosine weighted sum of luminance times solid angle; dgp is min(1, 5.87e-5 Ev + 9.18e-2 log10(1 + sum L^2 w / (Ev^1.87 P^2)) + 0.16) and ugr is max(0, 8 log10(0.25 / Lb sum L^2 w / P^2)) over the rays above the threshold.',
  'every list of rays with light', 'all list lengths and real values', f'{MS}:MetricSet.dgp', f'{MS}:MetricSet.ugr', f'{BM}:BaseMetricSet.illum')
p('C88', 'framesize keeps the resolution and the aspect ratio',
  'Mapper.framesize(res) has its longer side equal to res and the other within half a pixel of the aspect ratio.',
  'every aspect ratio and resolution', 'unbounded resolutions, rounding', f'{M}:Mapper.framesize')
p('C89', 'Mapper.in_view is the bounding box',
  'Mapper.in_view(v) holds exactly for points inside or on the edge of the bounding box of the mapper.',
  'every mapper and point', 'continuum', f'{M}:Mapper.in_view')
p('C90', 'the area of a view is its solid angle',
  'ViewMapper.area is the solid angle 2 pi (1 - cos(viewangle / 2)) of the view cone, 4 pi for a 360 degree view.',
  'every view angle', 'continuum', f'{VM}:ViewMapper.viewangle')
p('C91', 'a weighted quantile splits the weight',
  'the data below weighted_quantile(d, w, q) carry at most q of the total weight and the data above it at most 1 - q, and the result depends only on the weighted data, not on the order of equal data.',
  'every data set and weights', 'all inputs', f'{T}:weighted_quantile', f'{T}:weighted_median')
p('C92', 'down sampling uses the requested whole number factor',
  'resample to 1/k of the length of an axis averages blocks of k samples also in float64 arithmetic.',
  'every factor and length', 'rounding errors at isolated factors', f'{T}:resample')
p('C93', 'normalize_peak makes nothing brighter than the peak',
  'without blur or photo corrections no ray returned by normalize_peak has a higher luminance than the brightest input ray.',
  'every ray set and parameter choice', 'all inputs; depends on the pixel size', f'{IT}:normalize_peak', f'{IT}:find_peak')
p('C94', 'normalize_peak conserves colours',
  'the energy of each colour channel is the same before and after normalize_peak.',
  'every colour ray set and parameter choice', 'all inputs, all branches', f'{IT}:normalize_peak', f'{IT}:find_peak')
p('C95', 'the retinal meridians agree at the fovea',
  'rgcf_density_on_meridian(0, m) is the same foveal density for the four meridians m.',
  'all meridians', 'a property of the real valued formula', f'{RT}:rgcf_density_on_meridian')
p('C96', 'pupil diameter',
  'GSS.pupil returns a diameter between 1.1 and 8 mm with the area of that circle for every illuminance and every age from 10 to 100, and the pupil closes as the illuminance grows.',
  'every illuminance and age', 'continuum', f'{GS}:GSS.pupil')
p('C97', 'the point spread function distributes all light',
  'for every age, pigmentation and pupil the point spread function is positive and integrates to one over the hemisphere, and the discrete kernel sums to the part captured by its window.',
  'every age, pigmentation, pupil and kernel', 'an integral over a continuum', f'{GS}:GSS.psf_coef', f'{GS}:GSS.f_b', f'{GS}:GSS.psf')
p('C98', 'every accepted image gets a bounded glare score',
  'GSS.compute on a square non-negative image with light at the eye returns a finite score between 0 and 33.5 (raw: 1) times the fourth root of the solid angle in view; an image is accepted exactly if a visible pixel has light.',
  'every image, view, age and parameter choice', 'all images and image sizes', f'{GS}:GSS.compute', f'{GS}:GSS.lum')
p('C99', 'uniform images',
  'the glare score of a uniform image does not depend on the point spread, eye movement or filter settings, and has a closed form in its luminance.',
  'every uniform image, view and parameter choice', 'all image sizes and all filters', f'{GS}:GSS.compute')
p('C100', 'the score does not depend on earlier images',
  'processing an image with a GSS object that has already processed any other square images gives the same score, or the same exception, as with a new object.',
  'every history of images', 'all histories', f'{GS}:GSS.compute', f'{GS}:GSS.lum')
p('C102', 'metrics do not depend on which others are asked for',
  'the value imgmetric returns for a metric is the same whichever other metrics, including irradiance, are in the list.',
  'every image, option and metric list', 'all lists; colour metrics take another code path', f'{IT}:imgmetric')
p('C101', 'each image gets its own result file',
  'project, align, solid2ang and the saved glare images write the result for each image to a path beside it that is different for different images and options, write over no image given to the command, and leave the same files whatever the order in which the parallel tasks run.',
  'every list of paths, every option and every schedule', 'all strings; all interleavings of the pool', f'{IT}:hdr_uv2ang', f'{IT}:hdr_ang2uv', f'{IT}:hdr_solid2ang', f'{IT}:hdr_rotate', f'{GS}:process_gss', f'{CLI}:project', f'{CLI}:align', f'{CLI}:solid2ang')
p('C103', 'scores belong to their image',
  'gss_compute returns one glare score for each image file, in the order of the files, and each is the score of that image in its own view, whichever other files are in the list.',
  'every list of image files and illuminances', 'all lists', f'{GS}:gss_compute', f'{GS}:process_gss')
p('C104', 'array_rotate turns images about their centre',
  'array_rotate(img, ang) returns an image of the same size in which pixel (i, j) is the input interpolated at the centre of (i, j) turned by ang degrees about the image centre, so that images with a bilinear gradient are turned without error; images that are not square are rejected with ValueError.',
  'every square image, angle, fill value and method', 'the sampling goes through spherical coordinates; all sizes and angles', f'{IT}:array_rotate')
p('C105', 'rotation by nothing changes nothing',
  'array_rotate(img, 0) returns the image, and small angles change it little.',
  'every image and method', 'all sizes and all angles', f'{IT}:array_rotate')
p('C106', 'quarter turns move whole pixels',
  'array_rotate(img, 90, nearest=True) returns the image with its pixels moved by a quarter turn, and four quarter turns return the original.',
  'every square image', 'all sizes', f'{IT}:array_rotate')
p('C107', 'rotation and centering stay in the range of the image',
  'every pixel array_rotate returns lies between the smallest and largest pixel of the input (and fill value), nearest=True returns only pixels of the input, and constant images stay constant.',
  'every image, angle, center, order, fill value and method', 'all images and angles', f'{IT}:array_rotate')
p('C108', 'centering puts the given pixel in place',
  'with center=(a, b) the middle pixel of the result is pixel (a, b) of the input, whatever the angle and method; with center=(a, b, x, y) pixel (a, b) moves to the point (x, y).',
  'every image of odd size, pixel, angle, fill value and method', 'all sizes and pixels', f'{IT}:array_rotate')
p('C109', 'rotate_first selects the order',
  'array_rotate rotates before it centers if rotate_first is true, and centers before it rotates otherwise.',
  'every image and center', 'all images and centers', f'{IT}:array_rotate')
p('C110', 'transform_to resamples an image by direction',
  'transform_to between views of up to 180 degrees keeps the image circle of an image converted to its own view, converts gradients without error, is linear in the image, makes no new values with nearest=True, and blackens pixels outside of the other view; it works for every view.',
  'every pair of views, image and method', 'all images, sizes and view directions', f'{VM}:ViewMapper.transform_to')
p('C111', 'array_solid2ang converts between the fisheye projections',
  'array_solid2ang gives an angular fisheye image whose pixel at angle t from the axis shows the equisolid input at the radius of t (within 1e-9 of the image size), reverse=True the converse; nearest=True makes no new values; results are in the range of the image; views above 180 degrees and images that are not square raise ValueError.',
  'every square image and pixel', 'all sizes; the two mappers involved are both documented the other way round', f'{IT}:array_solid2ang', f'{VM}:ViewMapper.transform_to', f'{SV}:SolidViewMapper')
p('C112', 'img_size returns (width, height)',
  'img_size(file) returns (width, height) for either order and any signs of the axes in the resolution string, whatever the file is called.',
  'every file name, width, height and resolution string', 'all names and sizes', f'{IT}:img_size')
p('C113', 'vf_to_vm reads back the last view of a view file',
  'vf_to_vm returns the view whose header line is the last view in the file, wherever the line is and in whatever order its options come; files without a -vta view raise ValueError.',
  'every view, file and option order', 'all files and views', f'{IT}:vf_to_vm', f'{VM}:ViewMapper.header')
p('C114', 'a written view has a usable up vector',
  'the view line a ViewMapper writes to an image header names an up vector that is not parallel to the view direction.',
  'every view direction, angle and view point', 'all directions', f'{AM}:AngularMixin.header')
p('C115', 'xyz2skybin with a tolerance returns the sky bins near the directions',
  'xyz2skybin(xyz, side, tol) with tol > 0 returns, sorted and without repetition, the sky bins with a point within tol bin widths of a direction; with tol = 0 it returns the bin of each direction.',
  'every direction, side and tolerance', 'all directions, sides and tolerances', f'{T}:xyz2skybin')
p('C116', 'non_uniform_gaussian_filter treats the rows of y alike and alone',
  'with coordinates xr each value is the average of its row, weighted with the normal density around the coordinate, in any order of the samples; several rows give what each row alone gives; a row without weight is interpolated; the median is the quantile 1/2, and quantiles are between the values that have weight; this holds for any number of rows; without xr the coordinates are those of the data.',
  'every x, y, xr, bandwidth and averaging method', 'all data, orders of the samples and densities that may vanish', f'{T}:non_uniform_gaussian_filter', f'{T}:weighted_quantile')
p('C117', 'the smooth command prints smoothed columns',
  'smooth prints one line per coordinate (a given number of them in equal steps from the least to the greatest x, or those given) with the average of each column weighted with a normal density of the width sigma*sf (by default that of Scott\'s rule); values stay within the range of the column and do not depend on the unit of x; without columns it prints the density estimate with that width.',
  'every file, column choice, x_out, sigma and sf', 'all data and options', f'{CLI}:smooth', f'{T}:non_uniform_gaussian_filter')
p('C118', 'image file names reach the Radiance programs unchanged',
  'hdr2array, hdr2carray and hdr_header hand the name of the image file to pvalue and getinfo as one argument, unchanged, whatever its characters; so the pixels of that very file are read, and a file that does not exist raises ValueError.',
  'every file name', 'all names, including blanks and quotes', f'{IO}:hdr2array', f'{IO}:hdr2carray', f'{IO}:hdr_header')
p('C119', 'hdr_header returns the header of the file',
  'hdr_header(imgf) returns the name of the file and its header lines after the first, in order; it raises FileNotFoundError for a file that does not exist, and only then.',
  'every file name and header', 'all headers', f'{IO}:hdr_header')
p('C120', 'the cleanheader command keeps pixels and the cleaned header',
  'cleanheader writes the image with the pixels it has read, and adds the name of the file, the ordinary lines of its header in order and the last view, whatever the header says.',
  'every image, name and header', 'all images and headers', f'{CLI}:cleanheader', f'{IO}:hdr2carray', f'{IO}:carray2hdr', f'{IO}:hdr_header')
p('C121', 'bins survive rounding',
  'in double precision uv2bin(bin2uv(b, side, offset), side) = b for every bin and offset in [0, 1), uv2ij returns for every point of the two unit squares a cell in range, in the right square and off by no more than a rounding error (a point at one edge never ends up at the other), and cells are in the order of the points.',
  'every side, bin, offset and point, as binary64 numbers', 'all binary64 numbers and sides', f'{T}:uv2ij', f'{T}:uv2bin', f'{T}:bin2uv')
p('C122', 'norm returns unit vectors in double precision',
  'norm and norm1 return in double precision, for every vector that is not zero, a vector whose length is 1 and whose direction is that of the argument, both up to rounding; norm1 keeps the zero vector.',
  'every vector of binary64 numbers', 'all binary64 numbers', f'{T}:norm', f'{T}:norm1')
p('C123', 'angles of unit vectors are defined in double precision',
  'in double precision no rounding error makes an angle nan: the components of a vector norm returns are between -1 and 1 (so xyz2tp has a polar angle), ctheta has an angle for every pair of vectors, the position index a tilt for every source off the axis, every height between -1 and 1 a circle, and chord2theta an angle for the distance of every two vectors norm returns.',
  'every vector of binary64 numbers', 'all binary64 numbers', f'{T}:xyz2tp', f'{T}:ctheta', f'{T}:chord2theta', f'{T}:norm', f'{AM}:AngularMixin.ctheta', f'{PI}:PositionIndex')
p('C124', 'importing raytools extends the search path of the Radiance programs',
  'after importing raytools RAYPATH names the current directory, the cal directory of the package and the directories it named before, each once; Radiance programs find a file in the first two of them and otherwise where they found it before; importing again (or in a program started by this one) changes nothing.',
  'every value of RAYPATH and place of the package', 'all values of the variable and all files', 'raytools/__init__.py:set_raypath')
p('C125', 'init_img returns an image, its vectors and its mask',
  'init_img returns a zero array of shape (res*aspect, res), with the features in front if there are several, a direction vector for each pixel (the direction of the pixel centre in the projection asked for by any of the documented names), a mask of the pixels within the image circle as indices or booleans, the same for all features in mask2, and a header that names that projection.',
  'every view, resolution, number of features and projection name', 'all views, resolutions and pixels', f'{AM}:AngularMixin.init_img', f'{VM}:ViewMapper.init_img', f'{VM}:ViewMapper._process_viewproj', f'{M}:Mapper.init_img')
p('C126', 'grow draws squares',
  'add_vecs_to_img(img, v, c, grow=g) sets the (2g+1)x(2g+1) pixels around every pixel a vector falls on to c, and leaves all other pixels as they are.',
  'every image, vector list, value and grow', 'all images and arrangements of vectors', f'{AM}:AngularMixin.add_vecs_to_img', f'{M}:Mapper.add_vecs_to_img')
p('C127', 'plot shows the vectors in view',
  'plot(xyz, outf, res, grow) writes an image with the header of the view in which the squares around the pixels of the vectors in view are lit, and all else is black.',
  'every view, vector list, resolution and grow', 'all views and vectors', f'{M}:Mapper.plot')
p('C128', 'converted image files say what their image is',
  'the file hdr_solid2ang writes has one view, read back by hdr2vm: that of the converted image, with the view direction and point of the source and the view angle given, that of the source, or 180; hdr_rotate and hdr_uv2ang keep the view of the source, and hdr_ang2uv, whose result is not an angular image, does not leave a view behind.',
  'every source image, header, angle and rotation', 'all headers and numbers', f'{IT}:hdr_solid2ang', f'{IT}:hdr_rotate', f'{IT}:hdr_ang2uv', f'{IT}:hdr_uv2ang', f'{IT}:hdr2vm', f'{IO}:carray2hdr')
p('C129', 'the square image of an angular image depends on the view',
  'hdr_ang2uv (project --ang2uv) with useview uses the view direction of the header, so that the result matches the standard projection.',
  'every image and view', 'all view directions and images', f'{IT}:hdr_ang2uv', f'{IT}:array_ang2uv', f'{CLI}:project')
p('C130', 'sums over rays in double precision',
  'illum and avglum as computed in double precision are those of the exact sums up to rounding, whatever the order in which the rays are stored and numpy adds the terms: the error is a part of all the light, at most the number of additions times 2^-52; two orders give nearly the same value; and more light in front of the viewer never gives a lower illuminance, not even by rounding.',
  'every list of up to about 2^40 rays with luminance and solid angle from 0 to 2^200, every view direction and scale, and every order and grouping of the additions', 'all numbers and all orders of addition (they depend on the length of the arrays and on the processor)',
  f'{BM}:illum', f'{BM}:avglum')
p('C131', 'a worker that dies',
  'when a worker process dies (killed, out of memory), at whatever moment, pool_call returns the results of the loop, raises what the loop raises, or raises BrokenProcessPool; the last only when a call was not submitted or had not finished. It never returns a short or wrong list, makes no call twice, and does not hang.',
  'every function, argument list, schedule and moment of the death', 'every interleaving and every crash point', 'raytools/utility.py:pool_call')
p('C132', 'no calls go on after pool_call',
  'when pool_call has returned or raised, no call is waiting, running or started later, as for the loop it is said to be equivalent to.',
  'every function, argument list and schedule', 'every interleaving', 'raytools/utility.py:pool_call', 'raytools/utility.py:TStqdm')

p('C133', 'angles as arrays and as whole numbers',
  'tpnorm returns the angles reduced to 0 <= theta < pi and 0 <= phi < 2 pi and tp2xyz their directions, the same for a list and for an array; neither changes its argument; calling again with the same argument gives the same directions; whole numbers are angles like any others.',
  'every list or array of angles', 'all angles and kinds of argument', f'{T}:tpnorm', f'{T}:tp2xyz')
p('C134', 'long header lines',
  "clean_header comes to an end for every header; every line of its result that stays from the header is cut into lines of at most 150 characters, the first as it stands and each further one behind the key and an equals sign (or behind dots, for a command), with no character lost or added; read again, the parts are one line: cleaning a cleaned header changes nothing, and header_items finds the same values in it as in the original. It never ends when a key has 149 or more characters and its line is too long; with a key of 148 characters the lines have 151; the view is not cut; and a word cut at a hyphen gets a blank when it is read again.",
  'all headers: any depth, any number of lines of any length, words of any length', 'where lines are broken depends on every length, blank and hyphen; a test that hangs settles nothing',
  'raytools/io.py:CleanHeader', 'raytools/io.py:CleanHeader.header', 'raytools/io.py:clean_header', 'raytools/io.py:header_items')
p('C135', 'insets and letters of header lines',
  "a header whose lines are inset by four spaces for each level, by tabs, or by a mixture of the two, with up to three spaces more, is cleaned to the same lines, and header_items finds the same values in it, as if every level were one tab; header_items takes two names for the same exactly when they differ in nothing but capital letters",
  'all headers of any length and depth, every mixture of tabs and spaces, all names', 'all insets in all combinations; a test has a few headers',
  'raytools/io.py:CleanHeader._preprocess', 'raytools/io.py:clean_header', 'raytools/io.py:header_items')
p('C136', 'smoothing and resizing keep the light',
  "resample by whole factors, up or down, smoothed or not, keeps the mean of the image and stays within its range; so does smoothing without a change of the size, but with a uniform window of an even number of values it moves the image and changes the mean. A mirrored or transposed input gives the mirrored or transposed output. A bright pixel becomes a Gaussian spot of the radius asked for, cut off at four radii. The eye movements of the glare sensation score neither add nor lose light on the retina.",
  'all images of any size, all factors, radii and resolutions', 'all images and radii; borders behave differently from the middle',
  f'{T}:resample', f'{GS}:GSS.apply_eye_movement_1', f'{GS}:GSS.apply_eye_movement_2', f'{GS}:GSS.apply_psf')
p('C137', 'left and right in the glare sensation score',
  "a square image and its mirror image, left and right exchanged, get the same glare sensation score or the same exception; with the point spread function on this needs a window of an odd number of pixels, whose kernel has its peak in the middle. With an even number the peak is set above the middle and the light is moved to one side.",
  'all square images of any size, all view directions and angles up to 180 degrees, all ages from 10 to 100 and every setting', 'all images; a symmetric test image cannot show a shift',
  f'{GS}:GSS.compute', f'{GS}:GSS.apply_psf', f'{GS}:GSS.prep_kernel', f'{GS}:GSS.field_response')
p('C138', 'no pixel sees more than one in the middle',
  "the rays of two points of an image are no further apart than the distance of the points times the angle that the image covers, and the solid angle that ViewMapper.pixel2omega gives any pixel of the image is at most that of a pixel in the middle",
  'all view directions, angles up to 180 degrees, resolutions, points and pixels', 'an inequality over all pairs of points of the image',
  f'{AM}:AngularMixin.vxy2xyz', f'{AM}:AngularMixin.pixel2omega')
p('C139', 'resample treats all axes alike',
  "an array with any number of axes, such as the channels of a colour image, is resampled like an image: made larger by whole factors along each axis its values are repeated, made smaller they are the means of blocks; mean and range stay, also when smoothed. The size asked for has a number for each axis, or one number for all of them; otherwise ValueError. Arrays with two axes give what images give.",
  'all arrays with any number of axes of any length, all whole factors and radii', 'every number of axes and every factor',
  f'{T}:resample')
p('C140', 'images are read whole or not at all',
  "hdr2array and hdr2carray come to an end in whatever order raytools and pvalue run and however small the pipes are, and give the image of the file; if pvalue dies at any moment, or the file is cut short so that pvalue prints only the beginning, they raise ValueError and never return part of an image. This needs the messages of pvalue to fit into the pipe that nobody reads.",
  'all images, all schedules of the two processes, all pipe capacities, all moments of death and all lengths of the cut text', 'all schedules and crash points',
  f'{IO}:_hdr_in', f'{IO}:hdr2array', f'{IO}:hdr2carray')
p('C141', 'images are written whole, in whatever order the programs run',
  "array2hdr and carray2hdr come to an end in whatever order raytools, pvalue and getinfo run, return without an exception, and the file gets everything that pvalue prints; at every moment, also when a program is killed, the file is the beginning of the finished one. The end is not reached for colour arrays with fewer than three channels, and failures of the programs are not reported.",
  'all arrays, all schedules of the three processes, all pipe capacities and moments of death', 'all schedules and crash points',
  f'{IO}:_array2hdr', f'{IO}:array2hdr', f'{IO}:carray2hdr')
p('C142', 'luminance of pixels in double precision',
  "rgbe2lum decodes the channels of a pixel without rounding, and rgb2rad, rgb2lum and rgbe2lum give the exact sums of the channels times 0.265, 0.670 and 0.065 up to a relative error of a few units in the last place, in whatever order the products are added, fused with the addition or not; only a black pixel has the luminance zero, and of two pixels with the same exponent the one that is brighter in a channel and no darker in the others has more luminance",
  'all pixels (channels and exponents from 0 to 255, as bytes or as integers), all colours up to 2^300, all orders of at most a thousand operations', 'all of the 2^32 pixels, and the order of additions depends on the processor',
  f'{IO}:rgb2rad', f'{IO}:rgb2lum', f'{IO}:rgbe2lum')
p('C143', 'glare counts less off the line of sight',
  "of two images with the same responses, the one whose mean eccentricity is larger never gets the larger score: the position weight falls from 33.1 on the line of sight to 9.8 at the border of the view. This fails below an eccentricity of 0.0103, where the weight rises first, by at most 0.05 percent.",
  'all responses and solid angles, all pairs of eccentricities from 0.009 to 0.12', 'a continuum of eccentricities, and the exception is a rise of 0.04 percent next to the line of sight',
  f'{GS}:GSS.gss', f'{GS}:GSS.ecc')
p('C144', 'light scattered in the eye',
  "the further from a source, the less of its light falls on the retina: the point spread and the line spread function fall strictly with the angle, alike to both sides; the part of the light that is scattered widely grows with age and with the pigmentation parameter",
  'all angles up to 90 degrees, ages up to 100, pigmentation between 0 and 1, pupils from 1/4 to 100 mm', 'a continuum of angles and of four parameters',
  f'{GS}:f_b', f'{GS}:l_b', f'{GS}:GSS.psf_coef')
p('C145', 'brighter scenes glare more',
  "when a scene gets brighter, the predicted glare does not fall: if all luminances (or the scale) are multiplied by a factor above one, dgp grows up to 1 and ugr does not fall, whatever the threshold. If only some of the rays get brighter, dgp can fall.",
  'all sets of rays, views, thresholds and factors', 'all scenes; with an absolute threshold more rays become sources as the scene gets brighter',
  f'{MS}:MetricSet.dgp', f'{MS}:MetricSet.ugr', f'{MS}:MetricSet.threshold')
p('C146', 'units of luminance',
  "multiplying all luminances (or all channels) that are given to a metric set by a positive factor has exactly the effect of multiplying its scale by that factor: the same rays are kept and clipped, the same solid angles come back, and every metric has the same value or raises the same exception",
  'all rays, views, options, factors and lists of metric names, of the three kinds of metric sets', 'all combinations of rays, options and more than twenty metrics',
  f'{BM}:BaseMetricSet', f'{MS}:MetricSet', f'{CM}:ColorMetricSet')
p('C147', 'order of the rays',
  "the order in which the rays are given does not matter: permuting directions, solid angles and luminances (or colours) together keeps the same rays and leaves the value of every metric unchanged, with and without the correction of the solid angles. It holds without bright rays at the edge of the view; with two of them, the one that comes last decides.",
  'all rays, permutations, views, options and lists of metric names', 'the permutations of all lists of rays',
  f'{BM}:BaseMetricSet', f'{MS}:MetricSet', f'{CM}:ColorMetricSet')
p('C148', 'heading of the view',
  "what a viewer sees does not depend on the compass: turning the view direction and all rays about the vertical axis by the same angle, or reflecting both in a vertical plane, changes neither the position index of a direction nor any metric of the rays. It holds for views that are not vertical; a view straight up has an arbitrary heading, on which the position index depends.",
  'all angles, planes, view directions and angles, rays, options and lists of metric names', 'a continuum of headings and scenes',
  f'{BM}:BaseMetricSet', f'{MS}:MetricSet', 'raytools/evaluate/positionindex.py:PositionIndex.positions', f'{VM}:ViewMapper')
p('C149', 'subdividing rays',
  "how finely a scene is sampled does not matter where luminance is uniform: replacing a ray by several of the same direction and luminance, whose solid angles add up to its own, changes no metric except density and avgraylum, which count rays. The solid angles are taken as given (as_area) and no bright rays lie at the edge of the view.",
  'all rays, subdivisions, views, options and lists of metric names', 'all ways to subdivide all lists of rays',
  f'{BM}:BaseMetricSet', f'{MS}:MetricSet')
p('C150', 'scenes of one luminance',
  "where every ray has the same luminance, avglum, pwavglum, avgraylum and maxlum are that luminance (times the scale), gcr and pwgcr are 1 and their logarithms 0; a threshold relative to the task finds no sources, tasklum is that luminance, ugr is 0 and dgp is its illuminance term (at most 1). The solid angles are taken as given.",
  'all luminances, directions, solid angles, views and options', 'all uniform scenes, whatever their rays',
  f'{BM}:BaseMetricSet', f'{MS}:MetricSet')
p('C151', 'raising the threshold',
  "raising the threshold finds no more glare: every source above the higher threshold is a source above the lower one, srcarea, srcillum and pwsl2 do not grow, backlum does not fall, and neither dgp nor ugr grows, provided both thresholds are fixed luminances (above 100) or both are multiples of the task luminance. From 100 (a multiple) to 101 (a luminance) glare can appear.",
  'all scenes, scales and pairs of thresholds', 'all pairs of thresholds on all scenes',
  f'{MS}:MetricSet')
p('C152', 'rays out of view',
  "rays that the view does not see change nothing: adding any number of them anywhere among the rays given to MetricSet or ColorMetricSet leaves the object, and so all metrics, as they were. With bright rays within one degree of the edge this fails: whether they count depends on the average luminance of all rays, seen or not.",
  'all views, rays, options, and all ways to add unseen rays', 'all sets of rays and insertions',
  f'{BM}:BaseMetricSet.__init__', f'{CM}:ColorMetricSet')
p('C153', 'lengths of direction vectors',
  "directions need not be unit vectors: the lengths of the directions of rays (MetricSet, ColorMetricSet), of view directions (ViewMapper), of directions located in an image (xyz2vxy, ray2pixel), of directions given a position index, and of those given to norm, xyz2xy, and to xyz2uv and xyz2skybin with normalize=True change nothing. in_view and degrees of a view do depend on them.",
  'all directions and positive factors, one for each ray', 'all lengths of all vectors',
  f'{T}:norm', f'{T}:xyz2xy', f'{VM}:ViewMapper', f'{AM}:AngularMixin', f'{BM}:BaseMetricSet.__init__')
p('C154', 'exposure of images',
  "multiplying all pixels of an image by a factor has the effect of multiplying scale by it: imgmetric gives the same values or raises the same exception, and normalize_peak consolidates the same rays into a source of the same direction and size. With blursun this fails: the correction compares luminance with a fixed value and ignores scale.",
  'all images, views, options, metrics and positive factors', 'all images and factors',
  'raytools/imagetools.py:imgmetric', 'raytools/imagetools.py:normalize_peak', 'raytools/imagetools.py:find_peak', 'raytools/evaluate/retina.py:blur_sun')
p('C155', 'normalising the peak again',
  "normalize_peak is idempotent: applied to its own result it returns the same rays, where no ray kept is above the threshold (default peakc, no blursun), and the source it makes is never larger than peaka. With a bright ray left beside the source it is not: the second call consolidates that ray, and the maximum luminance falls again.",
  'all rays, luminances and colours, areas, thresholds and radii', 'all sets of rays, applied twice',
  'raytools/imagetools.py:normalize_peak', 'raytools/imagetools.py:find_peak')
p('C156', 'sources do not depend on the orientation of the axes',
  "rotating or reflecting the directions of all rays rotates or reflects the result of normalize_peak and the secondary sources of find_peak: the same rays are consolidated, into a source of the same size, luminance and colour, whose direction is moved in the same way, with all corrections; the same exceptions are raised.",
  'all rays, arguments, weights and all rotations and reflections', 'all rotations and sets of rays',
  'raytools/imagetools.py:normalize_peak', 'raytools/imagetools.py:find_peak', 'raytools/imagetools.py:gather_strays')
p('C157', 'order of the rays with a peak',
  "the order in which the rays are given and the sort used do not matter for normalize_peak and the secondary sources: the same rays result, up to order, and the same exceptions. This holds where no two rays above the threshold are equally bright. Of rays that are equally bright the first ones in the order of the sort are consolidated, so that the colour and direction of the source depend on the order of the pixels.",
  'all lists of rays and their permutations, all sorts by descending luminance, all arguments', 'all permutations and all orders of equal keys',
  'raytools/imagetools.py:normalize_peak', 'raytools/imagetools.py:find_peak', 'raytools/imagetools.py:gather_strays')
p('C158', 'rays below the threshold do not matter',
  "two lists of rays with the same rays above the threshold, whatever the others are and wherever they stand in between, give the same result of normalize_peak: the same source, made of the same rays, with the same bright rays left; all other rays are kept as they are, and the same exception is raised. The secondary sources are the same.",
  'all lists of rays with the same bright rays, all arguments, weights and sorts', 'all rays below the threshold and their places in the list',
  'raytools/imagetools.py:normalize_peak', 'raytools/imagetools.py:find_peak', 'raytools/imagetools.py:gather_strays')
p('C159', 'the angle between directions is a distance',
  "for unit vectors radians and degrees fulfil the triangle inequality, also along paths of any number of directions, so that circles whose centres are further apart than the sum of their radii have no direction in common. Rotations and reflections keep the angle. Searching within the chord theta2chord(t) is searching within the angle t.",
  'all unit vectors, paths, angles, rotations and reflections', 'all directions and paths of any length',
  'raytools/translate.py:radians', 'raytools/translate.py:degrees', 'raytools/translate.py:ctheta', 'raytools/translate.py:theta2chord')
p('C160', 'culling vectors again',
  "where the ball query lists ascending indices, cull_vectors culls nothing more from the vectors it kept, and rotating, reflecting or shifting all vectors does not change the mask. A larger tolerance should keep no more vectors than a smaller one; this is false: five vectors of which a tolerance of 10 keeps two and a tolerance of 12 four.",
  'all lists of vectors, tolerances and motions', 'all lists of vectors, applied twice',
  'raytools/translate.py:cull_vectors')
p('C161', 'weighted quantiles in other units',
  "weighted_quantile of data that are multiplied by a positive factor and shifted is its result multiplied and shifted in the same way, and multiplying weights and threshold by a positive factor changes nothing; the same exceptions are raised. Changing the sign of the data should change the sign of the weighted median; this is false: the weights 1, 2, 1 of the data 0, 1, 3 give 0.75, and -1.5 with the opposite signs.",
  'all data, weights, quantiles, thresholds and units', 'all data and units',
  'raytools/translate.py:weighted_quantile', 'raytools/translate.py:weighted_median')
p('C162', 'smoothing is linear',
  "non_uniform_gaussian_filter with amethod='mean' is linear in the values: smoothing a*y + c*z gives a times the smoothed y plus c times the smoothed z, for sorted and unsorted coordinates, with and without band width and new coordinates, also where values are interpolated in gaps; it fails only where smoothing y or z fails.",
  'all values, coordinates, widths, band widths and factors', 'all rows of values and factors',
  'raytools/translate.py:non_uniform_gaussian_filter')
