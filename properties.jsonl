{"id": "C01", "title": "Pixel addressing is a bijection", "statement": "For an image whose pixel count fits the index type, pixel_index maps the pixels of the image one-to-one onto 0 .. width*height-1, in row-major order; pixel_value of a pixel inside the image never reads outside the data array and returns the element written for that pixel and no other.", "quantifier": "every image size whose pixel count is representable, every pixel inside the image, every build (64-bit host/OpenCL, 32-bit CUDA index type)", "why_tests_cant": "collision- and bounds-freedom range over all image sizes and all pairs of pixels, including sizes near the wrap-around of the index type", "anchors": ["lib/indexing.cpp:pixel_index", "lib/indexing.cpp:pixel_value"]}
{"id": "C02", "title": "Reparametrization addressing is injective and in bounds", "statement": "For a constructed DisparityGraph whose reparametrization array size is representable, the index of (node, neighbor slot) is strictly below the array size and distinct (node, slot) pairs get distinct indices, so a potential can be stored for each pair independently; the three lookup variants (by slot, by neighbor pixel, by edge) agree.", "quantifier": "every graph size, every pair of (pixel, disparity, slot) triples inside the graph, every build", "why_tests_cant": "needs all sizes and all pairs of triples; a mistaken stride shows up only for particular non-square shapes", "anchors": ["lib/indexing.cpp:reparametrization_index_fast", "lib/indexing.cpp:reparametrization_index", "lib/indexing.cpp:reparametrization_index_slow", "lib/disparity_graph.cpp:DisparityGraph::DisparityGraph"]}
{"id": "C03", "title": "Node addressing is a bijection onto the availability array", "statement": "node_index maps the nodes (pixel, disparity below the number of levels) of a graph one-to-one onto the positions of the availability array of a ConstraintGraph built from it.", "quantifier": "every graph size whose node count is representable, every pair of nodes, every build", "why_tests_cant": "bijectivity ranges over all sizes and all pairs of nodes", "anchors": ["lib/indexing.cpp:node_index", "lib/constraint_graph.cpp:ConstraintGraph::ConstraintGraph"]}
{"id": "C04", "title": "Neighborhood addressing is a bijection onto the neighborhoods array", "statement": "neighborhood_index maps (pixel, neighbor slot) pairs one-to-one onto the positions of the neighborhoods array of LowestPenalties; the three lookup variants agree on existing neighborhoods.", "quantifier": "every graph size, every pair of (pixel, slot), every build", "why_tests_cant": "bijectivity ranges over all sizes and all pairs", "anchors": ["lib/indexing.cpp:neighborhood_index_fast", "lib/indexing.cpp:neighborhood_index", "lib/indexing.cpp:neighborhood_index_slow", "lib/lowest_penalties.cpp:LowestPenalties::LowestPenalties"]}
{"id": "C05", "title": "Neighbor slots and neighbor pixels are inverse to each other", "statement": "For two pixels of one image, neighbor_index gives a slot below 4 exactly when they are horizontally or vertically adjacent; neighbor_by_index then maps the slot back to the neighbor, and seen from the neighbor the slot is the opposite one (0<->1, 2<->3).", "quantifier": "every pair of pixels of every image, every slot, every build", "why_tests_cant": "the quantifier covers all pairs of pixels; tests cover a handful of coordinates away from the ends of the index type", "anchors": ["lib/indexing.cpp:neighbor_index", "lib/indexing.cpp:neighbor_by_index"]}
{"id": "C06", "title": "neighborhood_exists is exactly four-adjacency inside the image", "statement": "neighborhood_exists returns true if and only if both pixels lie in the image and are horizontal or vertical neighbors, for every pair of coordinate values of the index type, including ones outside the image; the relation is symmetric.", "quantifier": "every graph, every pair of pixels with arbitrary 64-bit (32-bit on CUDA) coordinates", "why_tests_cant": "unit tests sample borders; the claim includes wrap-around of x+1 and y+1 at the largest index values", "anchors": ["lib/indexing_checks.cpp:neighborhood_exists", "lib/indexing_checks.cpp:neighborhood_exists_fast"]}
{"id": "C07", "title": "node_exists is exactly the set of geometrically possible matches", "statement": "node_exists returns true if and only if the pixel is in the right image, the disparity is below the number of levels and the matched column x+d is inside the left image, for coordinates and disparities for which x+d does not wrap; for nodes with a pixel inside the image no wrap can occur.", "quantifier": "every graph, every node with arbitrary index-type components", "why_tests_cant": "includes wrap-around of x+d which no reasonable test uses", "anchors": ["lib/indexing_checks.cpp:node_exists"]}
{"id": "C08", "title": "Edges encode the ordering constraint and are symmetric", "statement": "edge_exists(edge) holds if and only if both nodes exist, their pixels are adjacent and, for a horizontal pair, the column matched by the left pixel is not greater than the column matched by the right pixel (x_l+d_l <= x_r+d_r); it gives the same answer for the reversed edge.", "quantifier": "every graph, every pair of nodes", "why_tests_cant": "all pairs of nodes of all graphs", "anchors": ["lib/indexing_checks.cpp:edge_exists"]}
{"id": "C09", "title": "image_valid decides validity of every image with fewer than 2^32 pixels", "statement": "For an image whose data array has width*height elements and fewer than 2^32 pixels, image_valid terminates, stays inside the array and returns true if and only if width, height and max_value are nonzero and no intensity exceeds max_value.", "quantifier": "every image with fewer than 2^32 pixels", "why_tests_cant": "all image contents and sizes; the boundary at 2^32 pixels cannot be exercised by a unit test", "anchors": ["lib/image.cpp:image_valid"]}
{"id": "C10", "title": "image_valid terminates and is memory safe for every image object", "statement": "Calling image_valid on any Image value returns an answer without reading outside the data array. (Violated: the 32-bit counter never reaches 2^32 or more pixels, and the length of data is never compared with width*height.)", "quantifier": "every Image value, including ones with 2^32 or more pixels, ones whose width*height wraps modulo 2^64, and ones whose data array is shorter than width*height", "why_tests_cant": "the failing inputs need images of more than 4 GiB pixels or inconsistent objects", "anchors": ["lib/image.cpp:image_valid"]}
{"id": "C11", "title": "PGM write/read round trip", "statement": "Writing a valid image with max_value at most 65536 and fewer than 2^32 pixels and reading the produced text back succeeds and yields an equal image (width, height, max_value and every intensity), whatever image the reader object held before.", "quantifier": "every valid image with max_value <= 65536", "why_tests_cant": "all sizes and contents; interaction of line wrapping at 11 numbers, digits and stream state cannot be enumerated", "anchors": ["lib/pgm_io.cpp:operator<<", "lib/pgm_io.cpp:operator>>", "lib/pgm_io.cpp:read_pgm_instruction", "lib/pgm_io.cpp:check_file_end"]}
{"id": "C12", "title": "Written PGM text respects the plain PGM line limit", "statement": "No line of the text written for a valid image with max_value at most 65536 is longer than 70 characters, and every number is separated from the next by white space.", "quantifier": "every valid image with max_value <= 65536, every width and height", "why_tests_cant": "all widths and digit counts", "anchors": ["lib/pgm_io.cpp:operator<<", "include/pgm_io.hpp:MAX_NUMBERS_PER_ROW"]}
{"id": "C13", "title": "Writing without a valid image writes nothing", "statement": "operator<< leaves the output untouched if the PGM_IO object holds no image or an invalid one; otherwise it writes a complete P2 file: header, then exactly height rows with width numbers each.", "quantifier": "every PGM_IO content", "why_tests_cant": "all invalid images", "anchors": ["lib/pgm_io.cpp:operator<<", "lib/image.cpp:image_valid"]}
{"id": "C14", "title": "A successfully read image has consistent dimensions", "statement": "If operator>> ends without failbit and without an exception, then the object holds a new image with max_value at most 65536 and exactly width*height intensities, provided width*height is representable; and the numbers are the ones of the file, in row-major order.", "quantifier": "every input byte sequence", "why_tests_cant": "all byte strings", "anchors": ["lib/pgm_io.cpp:operator>>", "lib/pgm_io.cpp:read_pgm_instruction"]}
{"id": "C15", "title": "Comments and white space between tokens do not influence the result", "statement": "Inserting white space or whole-line comments between the numbers of a well-formed file does not change the image read: any text made of the same tokens, separated by white space and comments beginning at a token start, is read as the same image.", "quantifier": "every well-formed token sequence and every choice of separators and comments", "why_tests_cant": "infinitely many layouts", "anchors": ["lib/pgm_io.cpp:read_pgm_instruction", "lib/pgm_io.cpp:check_file_end"]}
{"id": "C16", "title": "Truncated or non-numeric files are rejected", "statement": "If the file ends before all width*height intensities are given, or a token in a numeric position does not start with a number, or the magic is not P2, or max_value exceeds 65536, operator>> sets failbit and keeps the previously held image.", "quantifier": "every input byte sequence with one of these defects, any previous image", "why_tests_cant": "all defects at all positions", "anchors": ["lib/pgm_io.cpp:operator>>", "lib/pgm_io.cpp:read_pgm_instruction"]}
{"id": "C17", "title": "A failed read keeps the previous image", "statement": "Whenever operator>> reports failure (failbit), the image held before is still there. (Violated for trailing garbage after the last intensity: failbit is set but the new image is stored.)", "quantifier": "every input byte sequence, any previous image", "why_tests_cant": "all byte strings", "anchors": ["lib/pgm_io.cpp:operator>>", "lib/pgm_io.cpp:check_file_end"]}
{"id": "C18", "title": "Malformed input is reported through the stream state, never by an exception", "statement": "operator>> never throws; all malformed input is reported by failbit. (Violated: a number of 20 or more digits makes std::stoul throw out_of_range, which operator>> does not catch.)", "quantifier": "every input byte sequence", "why_tests_cant": "all byte strings; only out-of-range numbers trigger it", "anchors": ["lib/pgm_io.cpp:operator>>"]}
{"id": "C19", "title": "Reading is memory safe", "statement": "operator>> ends and never accesses memory outside the image it allocates nor violates the precondition of a library function, provided the product of the dimensions named in the file is representable in 64 bits and no byte of 128 to 254 follows the last intensity. (Without the provisos violated: a 2^32 x 2^32 header allocates nothing and the first intensity is written out of bounds; a trailing byte of 128 to 254 is passed to isspace as a negative number.)", "quantifier": "every input byte sequence", "why_tests_cant": "all byte strings; the counterexample needs a wrapping product", "anchors": ["lib/pgm_io.cpp:operator>>"]}
{"id": "C20", "title": "The reader accepts only numbers not above max_value", "statement": "An image read successfully is valid: its intensities do not exceed max_value and its dimensions are nonzero. (Violated: the reader checks neither, so image_valid must be called; negative and suffix-carrying tokens are accepted.)", "quantifier": "every input byte sequence", "why_tests_cant": "all byte strings", "anchors": ["lib/pgm_io.cpp:operator>>", "lib/image.cpp:image_valid"]}
{"id": "C21", "title": "DisparityGraph construction accepts exactly the documented problems", "statement": "Constructing a DisparityGraph succeeds if and only if both images are valid, 2 <= levels <= width, the images agree in width, height and max_value, neither weight is negative and at least one weight is not below epsilon; otherwise it throws invalid_argument for the first violated condition in that order. A constructed graph holds the given data unchanged and an all-zero reparametrization array of width*height*4*levels elements.", "quantifier": "every pair of images with fewer than 2^32 pixels, every number of levels, all weights including NaN and infinities", "why_tests_cant": "all combinations of defects and all floating-point weights", "anchors": ["lib/disparity_graph.cpp:DisparityGraph::DisparityGraph"]}
{"id": "C22", "title": "Penalties are the documented formulas", "statement": "On a graph with zero reparametrization and integer weights small enough for exact double arithmetic, node_penalty is cleanness*(right(x,y)-left(x+d,y))^2 and edge_penalty is smoothness*(d-d')^2 exactly; with any reparametrization they are these formulas plus, respectively minus, the stored potentials of the node's four slots, respectively the two facing slots.", "quantifier": "every graph, every existing node and edge", "why_tests_cant": "all image contents, all potentials, rounding of every operation", "anchors": ["lib/disparity_graph.cpp:node_penalty", "lib/disparity_graph.cpp:edge_penalty"]}
{"id": "C23", "title": "Reparametrization does not change the energy of any labeling", "statement": "In exact arithmetic, the sum of node and edge penalties over any labeling is the same for every reparametrization array whose entries for slots leading outside the image are zero.", "quantifier": "every graph, every reparametrization, every labeling", "why_tests_cant": "all labelings (exponentially many) and all potentials", "anchors": ["include/disparity_graph.hpp:DisparityGraph", "lib/disparity_graph.cpp:node_penalty", "lib/disparity_graph.cpp:edge_penalty"]}
{"id": "C24", "title": "The sum of lowest penalties is a lower bound on the energy", "statement": "In exact arithmetic, the sum of the lowest pixel penalties and of the lowest penalties of the right and down neighborhoods stored in LowestPenalties does not exceed the energy of any labeling satisfying the ordering constraint, for every reparametrization.", "quantifier": "every graph, every reparametrization, every labeling", "why_tests_cant": "all labelings and all potentials", "anchors": ["lib/lowest_penalties.cpp:LowestPenalties::LowestPenalties", "include/disparity_graph.hpp:DisparityGraph"]}
{"id": "C25", "title": "Lowest pixel penalty is the minimum over the pixel's nodes", "statement": "For every pixel, the value stored in LowestPenalties is not above the penalty of any existing node of the pixel and equals the penalty of one of them, whenever the penalties are numbers (not NaN).", "quantifier": "every graph, every reparametrization, every pixel, all floating-point values that are not NaN", "why_tests_cant": "all potentials and image contents", "anchors": ["lib/lowest_penalties.cpp:calculate_lowest_pixel_penalty", "lib/lowest_penalties.cpp:lowest_pixel_penalty"]}
{"id": "C26", "title": "Lowest neighborhood penalty is the minimum over the existing edges", "statement": "For every existing neighborhood the stored value is the minimum of the penalties of the edges that exist between the two pixels. (True for the right, up and down neighbor; violated for the left neighbor when the reparametrization is not zero, because the loop enumerates pairs that are not edges and skips pairs that are.)", "quantifier": "every graph, every reparametrization, every neighborhood", "why_tests_cant": "needs non-zero potentials in particular slots", "anchors": ["lib/lowest_penalties.cpp:calculate_lowest_neighborhood_penalty_fast", "lib/lowest_penalties.cpp:lowest_neighborhood_penalty"]}
{"id": "C27", "title": "Initial availability is exactly the set of nodes within the threshold", "statement": "After constructing a ConstraintGraph, a node is available if and only if it exists and its penalty exceeds the lowest penalty of its pixel by at most the threshold; for a non-negative threshold every pixel has an available node.", "quantifier": "every graph, every threshold, every node", "why_tests_cant": "all graphs and thresholds", "anchors": ["lib/constraint_graph.cpp:ConstraintGraph::ConstraintGraph", "lib/constraint_graph.cpp:is_node_available"]}
{"id": "C28", "title": "Changing the availability of a node affects that node only", "statement": "make_node_available / make_node_unavailable change the answer of is_node_available for the given node to true / false and for no other node; make_all_nodes_unavailable makes all nodes unavailable.", "quantifier": "every graph, every state of availability, every pair of nodes", "why_tests_cant": "all pairs of nodes and states", "anchors": ["lib/constraint_graph.cpp:make_node_available", "lib/constraint_graph.cpp:make_node_unavailable", "lib/constraint_graph.cpp:make_all_nodes_unavailable"]}
{"id": "C29", "title": "Edge availability", "statement": "For nodes of the graph, is_edge_available holds if and only if the edge exists, both ends are available and its penalty exceeds the lowest penalty of the neighborhood by at most the threshold. For zero reparametrization the answer for the reversed edge is the same.", "quantifier": "every graph, availability state, threshold and edge", "why_tests_cant": "all states; symmetry fails only for non-zero potentials (refuted separately)", "anchors": ["lib/constraint_graph.cpp:is_edge_available"]}
{"id": "C30", "title": "Edge availability is symmetric for every reparametrization", "statement": "is_edge_available gives the same answer for an edge and its reverse for every reparametrization. (Violated because the minima stored for the two directions of a horizontal neighborhood range over different pairs.)", "quantifier": "every graph, reparametrization, availability state, threshold, edge", "why_tests_cant": "needs specific potentials", "anchors": ["lib/constraint_graph.cpp:is_edge_available", "lib/lowest_penalties.cpp:calculate_lowest_neighborhood_penalty_fast"]}
{"id": "C31", "title": "A node is removed exactly if it lost all edges to some neighbor", "statement": "should_remove_node holds if and only if the node is available and there is an existing neighboring pixel to none of whose nodes it has an available edge.", "quantifier": "every graph, availability state, threshold and node", "why_tests_cant": "all states", "anchors": ["lib/constraint_graph.cpp:should_remove_node"]}
{"id": "C32", "title": "Solving never loses a consistent labeling", "statement": "If a labeling uses only available nodes, respects the ordering constraint and all of its edges are within the threshold, then after solve_csp all of its nodes are still available and solve_csp returns true; hence false means that no consistent labeling exists among the available nodes.", "quantifier": "every graph, availability state, threshold, labeling, every number of jobs, and every interleaving of the jobs", "why_tests_cant": "all labelings, states and schedules", "anchors": ["lib/constraint_graph.cpp:solve_csp", "lib/constraint_graph.cpp:csp_solution_iteration", "lib/constraint_graph.cpp:csp_process_pixel"]}
{"id": "C33", "title": "Solving never makes a node available", "statement": "solve_csp, csp_solution_iteration and csp_process_pixel only ever remove nodes; the graph, the penalties and the threshold do not change.", "quantifier": "every graph, availability state, job count and interleaving", "why_tests_cant": "all states and schedules", "anchors": ["lib/constraint_graph.cpp:solve_csp", "lib/constraint_graph.cpp:csp_process_pixel"]}
{"id": "C34", "title": "Result of solve_csp: all or nothing", "statement": "If the single-threaded solve_csp returns true every pixel has an available node; if it returns false no node at all is available.", "quantifier": "every graph, availability state and threshold", "why_tests_cant": "all states", "anchors": ["lib/constraint_graph.cpp:solve_csp", "lib/constraint_graph.cpp:csp_solution_iteration", "lib/constraint_graph.cpp:check_nodes_left"]}
{"id": "C35", "title": "solve_csp terminates", "statement": "The single-threaded solve_csp terminates for every graph and availability state after at most two sweeps; with several jobs that run interleaved on sequentially consistent memory it also needs at most two rounds.", "quantifier": "every graph, availability state, threshold, number of jobs, interleaving", "why_tests_cant": "termination for all inputs is not testable", "anchors": ["lib/constraint_graph.cpp:solve_csp"]}
{"id": "C36", "title": "solve_csp reaches arc consistency", "statement": "After solve_csp returns true, no available node should be removed any more (should_remove_node is false everywhere), and calling it again changes nothing. (Violated: the return value of csp_process_pixel is dropped, so there is a single raster sweep.)", "quantifier": "every graph, availability state and threshold", "why_tests_cant": "only particular instances expose it", "anchors": ["lib/constraint_graph.cpp:csp_solution_iteration", "lib/constraint_graph.cpp:solve_csp", "include/constraint_graph.hpp"]}
{"id": "C37", "title": "true from solve_csp means that a consistent labeling exists", "statement": "If solve_csp returns true on the graph for some threshold there is a labeling that is consistent at that threshold. (Violated.)", "quantifier": "every graph and threshold", "why_tests_cant": "requires exploring all labelings", "anchors": ["lib/constraint_graph.cpp:solve_csp", "include/constraint_graph.hpp"]}
{"id": "C38", "title": "Solvability is monotone", "statement": "If solve_csp succeeds for a threshold (or an availability state), it succeeds for every larger threshold (every larger availability state) and leaves at least the nodes it left before.", "quantifier": "every graph, pair of thresholds, pair of availability states", "why_tests_cant": "binary search relies on it for all thresholds", "anchors": ["lib/constraint_graph.cpp:solve_csp", "lib/labeling_finder.cpp:calculate_minimal_consistent_threshold"]}
{"id": "C39", "title": "The multi-threaded solver is safe for every schedule", "statement": "With any number of jobs whose memory accesses interleave arbitrarily, including lost updates between bits of one word of the availability array, no access is out of bounds, no node outside the initial set becomes available and no node of a consistent labeling is lost.", "quantifier": "every number of jobs, loop bound, word size and interleaving", "why_tests_cant": "schedules cannot be enumerated by tests", "anchors": ["lib/constraint_graph.cpp:solve_csp", "lib/constraint_graph.cpp:THREADS_NUMBER"]}
{"id": "C40", "title": "The result of the solver does not depend on the schedule", "statement": "Running the jobs of csp_solution_iteration in a different order, or with a different number of jobs, leaves the same nodes available and gives the same result. (Violated.)", "quantifier": "every graph, number of jobs and schedule", "why_tests_cant": "schedule dependent", "anchors": ["lib/constraint_graph.cpp:solve_csp", "lib/constraint_graph.cpp:csp_solution_iteration"]}
{"id": "C41", "title": "Candidate thresholds are complete, sorted and duplicate free", "statement": "fetch_available_penalties returns a strictly increasing list which contains, up to numeric equality, exactly the excess penalties over the lowest penalty of all nodes and of all edges enumerated for the existing neighborhoods; for zero reparametrization these include every existing edge.", "quantifier": "every graph whose penalties are finite, every correct sorting function", "why_tests_cant": "all graphs", "anchors": ["lib/labeling_finder.cpp:fetch_available_penalties", "lib/labeling_finder.cpp:fetch_pixel_available_penalties", "lib/labeling_finder.cpp:fetch_edge_available_penalties"]}
{"id": "C42", "title": "The minimal threshold is the smallest solvable candidate", "statement": "calculate_minimal_consistent_threshold on the list of candidates returns an element for which solve_csp succeeds on a fresh graph, whereas it fails for all smaller candidates; it evaluates solve_csp at most ceil(log2(size)) times.", "quantifier": "every graph with finite penalties and zero reparametrization, every candidate list produced for it", "why_tests_cant": "all graphs", "anchors": ["lib/labeling_finder.cpp:calculate_minimal_consistent_threshold"]}
{"id": "C43", "title": "The minimal threshold admits a consistent labeling", "statement": "At the threshold returned by calculate_minimal_consistent_threshold a consistent labeling exists. (Violated; it is only a lower bound on the best achievable threshold.)", "quantifier": "every graph with zero reparametrization", "why_tests_cant": "needs all labelings of an instance where one sweep is not enough", "anchors": ["lib/labeling_finder.cpp:calculate_minimal_consistent_threshold"]}
{"id": "C44", "title": "The threshold is a lower bound for every labeling", "statement": "No labeling satisfying the ordering constraint has all its node and edge excess penalties strictly below the threshold computed for the pair of images.", "quantifier": "every graph with finite penalties and zero reparametrization, every labeling", "why_tests_cant": "all labelings", "anchors": ["lib/labeling_finder.cpp:calculate_minimal_consistent_threshold"]}
{"id": "C45", "title": "choose_best_node leaves exactly one best node", "statement": "If the pixel has available nodes, choose_best_node returns the graph and leaves exactly one of them, which for non-negative penalties has the lowest penalty and, among equals, the lowest disparity; otherwise it returns null and changes nothing; nodes of other pixels are untouched.", "quantifier": "every graph, availability state and pixel, all non-NaN penalties", "why_tests_cant": "all states and penalties", "anchors": ["lib/labeling_finder.cpp:choose_best_node"]}
{"id": "C46", "title": "choose_best_node picks the lowest penalty also for negative penalties", "statement": "The chosen node has the lowest penalty for every reparametrization. (Violated: the sentinel -1 is confused with a genuine negative penalty.)", "quantifier": "every graph with non-zero reparametrization", "why_tests_cant": "requires negative penalties in a special order", "anchors": ["lib/labeling_finder.cpp:choose_best_node"]}
{"id": "C47", "title": "A labeling that is found is consistent", "statement": "If find_labeling returns the graph then every pixel has exactly one available node and the labeling formed by them respects the ordering constraint and has every edge penalty excess within the threshold, and it uses only nodes that were available before.", "quantifier": "every graph with finite penalties, availability state and threshold", "why_tests_cant": "all instances", "anchors": ["lib/labeling_finder.cpp:find_labeling"]}
{"id": "C48", "title": "The disparity map is the labeling", "statement": "If every pixel has an available node, build_disparity_map returns an image of the same size with max_value equal to the number of levels, whose value at each pixel is the lowest available disparity; it is a valid image; if some pixel has none it throws logic_error; it never reports two labels.", "quantifier": "every graph and availability state", "why_tests_cant": "all states", "anchors": ["lib/labeling_finder.cpp:build_disparity_map"]}
{"id": "C49", "title": "The disparity map produced is minimax optimal", "statement": "If the pipeline of the application produces a disparity map, the largest node or edge excess penalty of the map is not above that of any other labeling respecting the ordering constraint.", "quantifier": "every pair of valid images of equal size, every number of levels, all non-negative integer weights the command line can give, every labeling", "why_tests_cant": "all labelings of all problems", "anchors": ["lib/main.cpp:main", "lib/labeling_finder.cpp:find_labeling", "lib/labeling_finder.cpp:calculate_minimal_consistent_threshold", "include/labeling_finder.hpp"]}
{"id": "C50", "title": "'Cannot solve CSP problem' never happens", "statement": "After computing the threshold, solve_csp on a fresh graph at that threshold succeeds for every accepted problem.", "quantifier": "every accepted problem", "why_tests_cant": "the source says it should never happen; only a proof shows it", "anchors": ["lib/main.cpp:main"]}
{"id": "C51", "title": "The application produces a disparity map for every valid problem", "statement": "For every pair of valid images and valid parameters the application writes a disparity map. (Violated: 'Cannot find labeling', which should never happen, is reachable, with exit status 0 and no output file.)", "quantifier": "every accepted problem", "why_tests_cant": "only particular instances expose it", "anchors": ["lib/main.cpp:main", "lib/labeling_finder.cpp:find_labeling"]}
{"id": "C52", "title": "The CPU pipeline is free of undefined behaviour and always terminates", "statement": "From two files, the run of the application on the CPU never reads or writes outside an array, never sorts NaNs and always terminates, provided the dimensions in the files do not overflow the size computations and the images have fewer than 2^32 pixels.", "quantifier": "all file contents, all option strings", "why_tests_cant": "absence of undefined behaviour for all inputs", "anchors": ["lib/main.cpp:main", "lib/main.cpp:read_image"]}
{"id": "C53", "title": "Exit status and output", "statement": "The application writes the output file only if a disparity map was computed, and an unreadable or invalid image, invalid parameter or failed labeling leads to a message on standard error, no output file and exit status 0; exit status 1 is returned only for errors of option parsing, an unknown parallelism and exceptions other than logic errors.", "quantifier": "all options and file contents", "why_tests_cant": "all combinations", "anchors": ["lib/main.cpp:main"]}
{"id": "C54", "title": "Command line weights are parsed as unsigned integers", "statement": "The weights used are the leading unsigned decimal integers of the option strings; fractional weights are truncated and negative ones wrap, without an error. (The user-level claim that a weight is used as given is violated.)", "quantifier": "every option string", "why_tests_cant": "all strings", "anchors": ["lib/main.cpp:main"]}
{"id": "C55", "title": "Running without parameters prints the help", "statement": "Launching the application without parameters (or with --help) prints the allowed options. (Violated: both print 'You should specify both left and right image.')", "quantifier": "all option sets", "why_tests_cant": "reachability of a branch over all option sets", "anchors": ["lib/main.cpp:main", "README.rst"]}
{"id": "C56", "title": "LowestPenalties is a snapshot", "statement": "Values reported by a LowestPenalties object are those of the reparametrization at construction; changing the reparametrization of the graph later changes node and edge penalties but not the reported lowest penalties.", "quantifier": "every graph, every later reparametrization", "why_tests_cant": "all updates", "anchors": ["lib/lowest_penalties.cpp:LowestPenalties::LowestPenalties", "lib/lowest_penalties.cpp:lowest_pixel_penalty"]}
{"id": "C57", "title": "GPU kernels never lose a consistent labeling", "statement": "Whatever the interleaving of the work-items of csp_iteration, the group partition and the number of launches, no node of a labeling consistent with the availability at launch is removed, no node is added and all accesses are in bounds.", "quantifier": "every graph, availability state, partition into work groups, interleaving", "why_tests_cant": "schedules", "anchors": ["lib/solve_csp.cl:csp_iteration", "lib/solve_csp.cl:csp_solution_iteration_gpu", "lib/solve_csp.cu:csp_iteration_cuda"]}
{"id": "C58", "title": "GPU solution is arc consistent when all work-items of one group leave the loop normally", "statement": "If the launch consists of one work group and every work-item finishes, then afterwards no available node lacks an available edge to an existing neighbor.", "quantifier": "every graph, availability state, interleaving", "why_tests_cant": "schedules", "anchors": ["lib/solve_csp.cl:csp_solution_iteration_gpu", "lib/solve_csp.cu:csp_solution_iteration_gpu"]}
{"id": "C59", "title": "GPU work-items always meet at the barriers", "statement": "All work-items of a group execute the same number of barriers (required by OpenCL and CUDA). (Violated: the reset of the flag at the start of the next round races with the test at the end of the previous one.)", "quantifier": "every interleaving", "why_tests_cant": "race", "anchors": ["lib/solve_csp.cl:csp_solution_iteration_gpu", "lib/solve_csp.cu:csp_solution_iteration_gpu"]}
{"id": "C60", "title": "Doubles are exact on realistic integer problems", "statement": "For integer weights and intensities such that weight*max_value^2 and weight*levels^2 are at most 2^53, all penalties, minima, excesses and comparisons computed by the CPU build coincide with exact integer arithmetic.", "quantifier": "every such problem", "why_tests_cant": "all values; rounding", "anchors": ["lib/disparity_graph.cpp:node_penalty", "lib/disparity_graph.cpp:edge_penalty", "include/types.hpp"]}
{"id": "C61", "title": "GPU and CPU builds compute the same penalties", "statement": "Single precision penalties computed on the GPU equal the double precision ones of the CPU build. (Violated for intensities within the accepted range; true while weight*max_value^2 and weight*levels^2 stay at most 2^24.)", "quantifier": "every problem", "why_tests_cant": "only large differences expose it", "anchors": ["include/types.hpp", "lib/solve_csp.cl:csp_iteration", "lib/gpu_csp.cpp:prepare_problem"]}
{"id": "C62", "title": "Array sizes computed by the constructors do not wrap", "statement": "For every accepted DisparityGraph the reparametrization, availability and lowest-penalty arrays have the mathematically required number of elements. (Violated without a bound: e.g. width 2^31, one row and 2^31 levels give a reparametrization array of zero elements.)", "quantifier": "every accepted problem", "why_tests_cant": "needs sizes beyond any test machine", "anchors": ["lib/disparity_graph.cpp:DisparityGraph::DisparityGraph", "lib/constraint_graph.cpp:ConstraintGraph::ConstraintGraph", "lib/lowest_penalties.cpp:LowestPenalties::LowestPenalties"]}
{"id": "C63", "title": "A round that reports a change makes progress", "statement": "With several jobs and availability bits packed into machine words (std::vector<bool>), a round of solve_csp that reports a change leaves fewer nodes available, so that the loop ends. (Violated: lost updates can restore the removed nodes, so the loop may repeat for ever.)", "quantifier": "every graph, availability state, number of jobs, interleaving", "why_tests_cant": "depends on the interleaving of word updates", "anchors": ["lib/constraint_graph.cpp:solve_csp", "lib/constraint_graph.cpp:csp_process_pixel", "include/constraint_graph.hpp"]}
{"id": "C64", "title": "The result does not depend on the sorting algorithm", "statement": "The outcome of a run (status, message, file written) is the same for every correct implementation of std::sort, although equal penalties (0 and -0) may be ordered differently.", "quantifier": "all options, file contents and sorting functions", "why_tests_cant": "one library implements one algorithm", "anchors": ["lib/labeling_finder.cpp:fetch_available_penalties", "lib/main.cpp:main"]}
{"id": "C65", "title": "Every run on two image files is accounted for", "statement": "If the options name two image files, a run on a good problem writes a best disparity map or reports that no labeling was found; on any other problem it reports the first requirement violated and writes nothing.", "quantifier": "all images, options and weights", "why_tests_cant": "all combinations of violated requirements", "anchors": ["lib/main.cpp:main", "lib/disparity_graph.cpp:DisparityGraph::DisparityGraph"]}
{"id": "C66", "title": "Consistent cheapest matches are the answer", "statement": "If the cheapest match of every pixel (the one with the smallest disparity on ties) respects the ordering constraint and the excess penalties of its edges are zero, then the application finds a labeling and the disparity map consists of these matches.", "quantifier": "every accepted problem and such labeling", "why_tests_cant": "all problems; depends on the order of the choices", "anchors": ["lib/labeling_finder.cpp:find_labeling", "lib/labeling_finder.cpp:choose_best_node"]}
{"id": "C67", "title": "Equal images give a zero map", "statement": "If the left and the right file hold the same image and the problem is good, a map with disparity 0 everywhere is written, whatever the weights and the number of levels.", "quantifier": "all images, levels and weights", "why_tests_cant": "all images", "anchors": ["lib/main.cpp:main"]}
{"id": "C68", "title": "Written maps can be read back", "statement": "A disparity map written by the application can be read by it. (Violated: more than 65536 disparity levels are accepted, but a maximal value above 65536 is rejected by the reader.)", "quantifier": "every run that writes a map", "why_tests_cant": "needs images wider than 65536 pixels", "anchors": ["lib/main.cpp:main", "lib/pgm_io.cpp:operator>>"]}
{"id": "C69", "title": "GPU labelings are consistent", "statement": "If csp_solution_cl or csp_solution_cuda ends, at most one match per pixel is available, and if every pixel has one, these matches are a consistent labeling of the problem on the device; the application then reports a pixel without label or writes a map of matches in order whose penalties are within a threshold that no labeling stays below.", "quantifier": "every problem, device behaviour (barriers, memory order, groups) and execution", "why_tests_cant": "schedules and devices", "anchors": ["lib/gpu_csp.cpp:csp_solution_cl", "lib/cuda_csp.cu:csp_solution_cuda", "lib/labeling_finder.cpp:find_labeling_cl"]}
{"id": "C70", "title": "The host loop ends only when nothing is left to remove", "statement": "When the loop of csp_solution_cl around the launches ends, no available match lacks support. (Violated with several work-groups, which the host code does not exclude: every group resets both flags when it enters the kernel.)", "quantifier": "every problem, partition and execution", "why_tests_cant": "race", "anchors": ["lib/gpu_csp.cpp:csp_solution_cl", "lib/solve_csp.cl:csp_iteration"]}
{"id": "C71", "title": "Launches come to an end", "statement": "On a sequentially consistent device every execution of a launch has bounded length, and when no work-item can do anything, all have finished or some wait at a barrier for others that have left.", "quantifier": "every problem, barrier behaviour, partition and execution", "why_tests_cant": "termination for all schedules", "anchors": ["lib/solve_csp.cl:csp_iteration", "lib/solve_csp.cu:csp_iteration_cuda"]}
{"id": "C72", "title": "Maps found on a GPU are optimal", "statement": "A disparity map found with a GPU is optimal in exact integer arithmetic, as one found without. (Violated for penalties that single precision rounds.)", "quantifier": "every problem with penalties at most 2^24, device and execution", "why_tests_cant": "all problems, rounding", "anchors": ["lib/gpu_csp.cpp:prepare_problem", "lib/cuda_csp.cu:prepare_problem", "lib/main.cpp:main"]}
{"id": "C73", "title": "Devices and the CPU find the same map", "statement": "For the same images and options a run on a GPU gives the same disparity map, and writes the same file, as the run on the CPU. (Violated where the run on the CPU fails: a device may find a map there.)", "quantifier": "every problem with penalties at most 2^24 that the CPU solves, every orderly device and execution", "why_tests_cant": "all problems, all interleavings of the work-items", "anchors": ["lib/labeling_finder.cpp:find_labeling", "lib/gpu_csp.cpp:csp_solution_cl", "lib/cuda_csp.cu:csp_solution_cuda", "lib/main.cpp:main"]}
{"id": "C74", "title": "Runs on a GPU account for themselves", "statement": "A run of a GPU build that comes to an end ends with status 0 and has printed a message or written a valid image; without GPU support the build behaves as the plain one.", "quantifier": "every world, options, build, device and execution", "why_tests_cant": "all inputs", "anchors": ["lib/main.cpp:main"]}
{"id": "C75", "title": "Runs of the OpenMP build account for themselves", "statement": "With any number of threads and any schedule the OpenMP build accesses memory within bounds and meets no fault; it always can come to an end, and then has reported an error or has a valid image for the output file. Besides the errors of the sequential program it reports only that no labeling was found.", "quantifier": "every world, command line, team of threads, memory model and schedule", "why_tests_cant": "all interleavings of the threads, all inputs", "anchors": ["lib/main.cpp:main", "lib/constraint_graph.cpp:solve_csp", "lib/constraint_graph.cpp:csp_solution_iteration", "lib/labeling_finder.cpp:find_labeling"]}
{"id": "C76", "title": "OpenMP maps consist of good matches", "statement": "Every map the OpenMP build writes has the size of the images and names existing matches, whose penalties exceed the lowest ones by no more than every labeling must.", "quantifier": "every world, command line, team and schedule", "why_tests_cant": "all interleavings, all inputs", "anchors": ["lib/main.cpp:main", "lib/constraint_graph.cpp:solve_csp", "lib/constraint_graph.cpp:csp_solution_iteration", "lib/labeling_finder.cpp:find_labeling"]}
{"id": "C77", "title": "OpenMP maps are optimal", "statement": "A map written by the OpenMP build respects the ordering constraint and stays within every bound within which some labeling stays. (Violated if the bound of the parallel loop is evaluated outside the team, as GCC does: rows are skipped.)", "quantifier": "every world, command line, and team whose jobs cover all rows", "why_tests_cant": "all interleavings, all inputs", "anchors": ["lib/main.cpp:main", "lib/constraint_graph.cpp:solve_csp", "lib/constraint_graph.cpp:csp_solution_iteration", "lib/labeling_finder.cpp:find_labeling"]}
{"id": "C78", "title": "One OpenMP thread is the sequential program", "statement": "With one thread the OpenMP build does what the sequential build does; its run is among the runs of a team that may have one thread.", "quantifier": "every world and command line", "why_tests_cant": "all inputs", "anchors": ["lib/main.cpp:main", "lib/constraint_graph.cpp:solve_csp", "lib/constraint_graph.cpp:csp_solution_iteration", "lib/labeling_finder.cpp:find_labeling"]}
{"id": "C79", "title": "OpenMP results do not depend on the schedule", "statement": "Two runs of the OpenMP build, or one and a run of the sequential build, for the same files and options write the same file. (Violated: whether a file is written does depend on the schedule.)", "quantifier": "every world, command line, teams and schedules", "why_tests_cant": "all pairs of interleavings", "anchors": ["lib/main.cpp:main", "lib/constraint_graph.cpp:solve_csp", "lib/constraint_graph.cpp:csp_solution_iteration", "lib/labeling_finder.cpp:find_labeling"]}
{"id": "C80", "title": "The first optimal map is written", "statement": "Of all optimal labelings the sequential program writes the one that, pixel by pixel and column by column, takes the cheapest label, and the smallest disparity among equally cheap ones.", "quantifier": "every world and command line for which a map is written", "why_tests_cant": "compares the map with all optimal labelings", "anchors": ["lib/main.cpp:main", "lib/labeling_finder.cpp:choose_best_node", "lib/labeling_finder.cpp:find_labeling"]}
{"id": "C81", "title": "Labelings form a lattice", "statement": "Problems made by the application are such that of two labelings within the threshold the pixelwise smaller and the pixelwise larger one are labelings within the threshold, too.", "quantifier": "every problem without reparametrization, threshold and pair of labelings, on the host and on devices", "why_tests_cant": "all pairs of labelings", "anchors": ["lib/disparity_graph.cpp:edge_penalty", "lib/indexing_checks.cpp:edge_exists", "lib/constraint_graph.cpp:edge_available"]}
{"id": "C82", "title": "Arc consistency is enough", "statement": "If no node is to be removed and every pixel has an available node, then there is a labeling: taking the smallest available disparity everywhere, or the largest one everywhere, is one.", "quantifier": "every problem without reparametrization and every availability", "why_tests_cant": "all problems and all availabilities", "anchors": ["lib/constraint_graph.cpp:should_remove_node", "lib/constraint_graph.cpp:solve_csp"]}
{"id": "C83", "title": "Repeated calls of solve_csp decide", "statement": "Calling solve_csp more often than there are nodes succeeds in the end if and only if there is a labeling, and removes none; a call that succeeds without changing anything shows that there is one.", "quantifier": "every problem without reparametrization and every availability", "why_tests_cant": "exponentially many labelings", "anchors": ["lib/constraint_graph.cpp:solve_csp", "lib/constraint_graph.cpp:csp_solution_iteration"]}
{"id": "C84", "title": "One call on one row", "statement": "After one successful call every available node has a compatible available node to its left and above it. For images of one row success therefore means that there is a labeling, and the threshold computed is the smallest one that admits a labeling.", "quantifier": "every problem; one-row images of any width", "why_tests_cant": "all problems", "anchors": ["lib/constraint_graph.cpp:solve_csp", "lib/labeling_finder.cpp:calculate_minimal_consistent_threshold"]}
{"id": "C85", "title": "A consistent start is labeled on the CPU", "statement": "find_labeling succeeds if no node is to be removed at first and every pixel has an available node. (Violated; holds for images of one row.)", "quantifier": "every problem without reparametrization", "why_tests_cant": "all problems", "anchors": ["lib/labeling_finder.cpp:find_labeling", "lib/labeling_finder.cpp:choose_best_node", "lib/constraint_graph.cpp:solve_csp"]}
{"id": "C86", "title": "One propagation on a device decides", "statement": "On an orderly device (one group, barriers that wait for all, latest stores are seen) a propagation leaves a node for every pixel if and only if there is a labeling, and removes no labeling.", "quantifier": "every problem without reparametrization, device and schedule", "why_tests_cant": "all interleavings", "anchors": ["lib/solve_csp.cl:csp_iteration", "lib/solve_csp.cu:csp_iteration_cuda", "lib/gpu_csp.cpp:csp_solution_cl", "lib/cuda_csp.cu:csp_solution_cuda"]}
{"id": "C87", "title": "A consistent start is labeled on devices", "statement": "On an orderly device the labeling leaves exactly a labeling available if no node is to be removed at first and every pixel has an available node. (Violated; holds for images of one row.)", "quantifier": "every problem without reparametrization, device and schedule", "why_tests_cant": "all interleavings", "anchors": ["lib/solve_csp.cl:choose_best_node_gpu", "lib/solve_csp.cu:choose_best_node_gpu", "lib/gpu_csp.cpp:csp_solution_cl", "lib/cuda_csp.cu:csp_solution_cuda"]}
{"id": "C88", "title": "Results on devices do not depend on the schedule", "statement": "Two runs on orderly devices, OpenCL or CUDA, for the same files and options end in the same way: both write the same map or both fail with the same message. (Violated if barriers skip work-items that have left.)", "quantifier": "every world and command line whose penalties are at most 2^24, every pair of schedules", "why_tests_cant": "all pairs of interleavings", "anchors": ["lib/main.cpp:main", "lib/gpu_csp.cpp:csp_solution_cl", "lib/cuda_csp.cu:csp_solution_cuda", "lib/solve_csp.cl:csp_iteration", "lib/solve_csp.cu:csp_iteration_cuda"]}
{"id": "C89", "title": "Only the proportions of penalties matter", "statement": "If the penalties of matches and of edges of two problems of the same size are proportional, then both have the same outcome: the same map or the same failure. (Violated for penalties above 2^53, which are rounded.)", "quantifier": "every pair of accepted problems with proportional penalties of at most 2^53", "why_tests_cant": "all pairs of images and weights", "anchors": ["lib/disparity_graph.cpp:node_penalty", "lib/disparity_graph.cpp:edge_penalty", "lib/labeling_finder.cpp:calculate_minimal_consistent_threshold", "lib/labeling_finder.cpp:find_labeling", "lib/constraint_graph.cpp:solve_csp"]}
{"id": "C90", "title": "Only the proportions of penalties matter on devices", "statement": "As C89, for any two runs on orderly devices and penalties of at most 2^24.", "quantifier": "every pair of accepted problems, devices and schedules", "why_tests_cant": "all pairs of problems and interleavings", "anchors": ["lib/solve_csp.cl:csp_iteration", "lib/solve_csp.cu:csp_iteration_cuda", "lib/gpu_csp.cpp:csp_solution_cl", "lib/cuda_csp.cu:csp_solution_cuda"]}
{"id": "C91", "title": "Brightness, negatives and weights", "statement": "Adding a constant to all intensities, taking negatives of both images, or multiplying both weights by a number leaves the outcome the same; so does any linear change of the intensities if the weights are adjusted to it.", "quantifier": "every good problem with penalties of at most 2^53 before and after", "why_tests_cant": "all images and weights", "anchors": ["lib/disparity_graph.cpp:node_penalty", "lib/disparity_graph.cpp:edge_penalty", "lib/labeling_finder.cpp:calculate_minimal_consistent_threshold", "lib/labeling_finder.cpp:find_labeling", "lib/constraint_graph.cpp:solve_csp"]}
{"id": "C92", "title": "Files with proportional problems", "statement": "Runs on files that hold images of proportional problems, with options that give the weights, print and write the same.", "quantifier": "all worlds and command lines with penalties of at most 2^53", "why_tests_cant": "all files and options", "anchors": ["lib/main.cpp:main", "lib/pgm_io.cpp:operator>>", "lib/disparity_graph.cpp:node_penalty", "lib/disparity_graph.cpp:edge_penalty", "lib/labeling_finder.cpp:calculate_minimal_consistent_threshold", "lib/labeling_finder.cpp:find_labeling", "lib/constraint_graph.cpp:solve_csp"]}
{"id": "C93", "title": "Command lines mean what they say", "statement": "A command line is accepted exactly if its words spell declared options (long names or their beginnings, letters, values in the same or the next word) and each is given at most once; the application then gets exactly these settings. Repeated options and unknown or incomplete ones are rejected.", "quantifier": "every list of words", "why_tests_cant": "infinitely many command lines", "anchors": ["lib/main.cpp:main"]}
{"id": "C94", "title": "Order and spelling of options do not matter", "statement": "Command lines that give the same settings in another order or spelling have the same effect.", "quantifier": "every pair of command lines, every world", "why_tests_cant": "infinitely many spellings and orders", "anchors": ["lib/main.cpp:main"]}
{"id": "C95", "title": "Every word of the command line counts", "statement": "Words that are neither options nor values are reported, and an option is never taken for the value of another one. (Violated.)", "quantifier": "every list of words", "why_tests_cant": "infinitely many command lines", "anchors": ["lib/main.cpp:main"]}
{"id": "C96", "title": "Runs started with a command line", "statement": "Every run on usable files ends; its status is 1 exactly for command lines without a meaning and unknown technologies; only best maps of the images named are written, to the path named; without images nothing is done.", "quantifier": "every list of words, every world of usable files", "why_tests_cant": "all command lines and files", "anchors": ["lib/main.cpp:main"]}
{"id": "C97", "title": "The source of the OpenCL program is complete", "statement": "The text given to the OpenCL compiler consists of the lines of all source files in their order. (Violated if a file cannot be opened or does not end with a newline.)", "quantifier": "all contents of the source files", "why_tests_cant": "all file contents", "anchors": ["lib/compile_cl.cpp:concatenate_files", "lib/compile_cl.cpp:create_program", "lib/gpu_csp.cpp:build_csp_program"]}
{"id": "C98", "title": "Functions of the library", "statement": "The penalties fetched for a pixel or for two neighboring pixels are exactly the excesses over the lowest ones, in increasing order; the three ways to read a potential read the same entry; slots exist exactly where they lead to a pixel; nodes are left exactly if one is available.", "quantifier": "every well-formed graph, pixel and arithmetic", "why_tests_cant": "all graphs and pixels", "anchors": ["lib/labeling_finder.cpp:fetch_pixel_available_penalties", "lib/labeling_finder.cpp:fetch_edge_available_penalties", "lib/indexing.cpp:reparametrization_value", "lib/indexing.cpp:neighborhood_exists_fast", "lib/constraint_graph.cpp:check_nodes_left"]}
{"id": "C99", "title": "Closest matches", "statement": "Without smoothness, the closest matches are the map if they are in order. The map is zero if no match is closer than the pixel at the same place, or if the cleanness is 0.", "quantifier": "every accepted problem with penalties up to 2^53", "why_tests_cant": "all images and weights", "anchors": ["lib/labeling_finder.cpp:find_labeling", "lib/main.cpp:main"]}
{"id": "C100", "title": "Images upside down", "statement": "Turning both images upside down turns the map upside down. (Violated; the two maps are equally good.)", "quantifier": "every pair of problems with penalties up to 2^53", "why_tests_cant": "all images and weights", "anchors": ["lib/labeling_finder.cpp:find_labeling", "lib/main.cpp:main"]}
{"id": "C101", "title": "Failures of the OpenCL and CUDA libraries", "statement": "Whatever calls of the OpenCL or CUDA library fail, a run is a run without failures, or it writes nothing and ends in one of four known ways: status 1 with a message (OpenCL), exit(0) or abort after a message (CUDA), or the logic error about a pixel without label (CUDA with NDEBUG). Each of these may happen.", "quantifier": "every combination of failing calls, device, input files and options", "why_tests_cant": "failures cannot be provoked at will, least of all in every combination", "anchors": ["lib/cuda_csp.cu:cdpErrchk", "lib/cuda_csp.cu:cudaCheckError", "lib/cuda_csp.cu:csp_solution_cuda", "lib/cuda_csp.cu:free_problem", "lib/main.cpp:main"]}
{"id": "C102", "title": "Images for which the device has no room", "statement": "A run which does not write the map although there is one returns a status other than 0, and with CUDA images of any height are solved. (Violated: the kernel has one thread per row in a block; with more rows than threads allowed nothing is written, and the status is 0.)", "quantifier": "every limit of the number of threads and blocks", "why_tests_cant": "depends on the device", "anchors": ["lib/cuda_csp.cu:csp_solution_cuda", "lib/cuda_csp.cu:cudaCheckError"]}
{"id": "C103", "title": "Launches of the host loop", "statement": "A launch that makes the OpenCL host start another one has removed a match for good, so that a labeling has at most width * height * (levels + 1) launches, whatever the memory, the barriers and the work-groups of the device do; and on every device the labeling of every problem can end.", "quantifier": "every problem, memory model, kind of barriers and partition into work-groups", "why_tests_cant": "tests see one device and its schedules; a host loop that does not end shows up as a test that does not", "anchors": ["lib/gpu_csp.cpp:csp_solution_cl", "lib/solve_csp.cl:csp_iteration", "lib/cuda_csp.cu:csp_solution_cuda"]}
{"id": "C104", "title": "Incomplete PGM files", "statement": "A file of which the last characters are missing is not taken for an image, or at least is read as the image that was written. (Violated if the last intensity has several digits.)", "quantifier": "every valid image and every point at which its text may end", "why_tests_cant": "tests try a few images and a few points at which the file ends; whether the reader notices depends on the last intensity", "anchors": ["lib/pgm_io.cpp:operator<<", "lib/pgm_io.cpp:operator>>", "lib/pgm_io.cpp:read_data"]}
{"id": "C105", "title": "Complete output files", "statement": "If the application ends with status 0 and without a message, the disparity map has been written completely; and whoever reads an incomplete map with the library notices it. (The first part is violated.)", "quantifier": "every command line, all files, every build and device, and every amount of room on the disk", "why_tests_cant": "tests have room on their disks", "anchors": ["lib/main.cpp:main", "lib/pgm_io.cpp:operator<<"]}
{"id": "C106", "title": "Runs one after another", "statement": "Every series of runs ends; a run changes no file but its output and leaves the images it reads as they are, so that it can be repeated with the same result; the maps can be images of later runs; and the order of runs that have no files in common does not matter. (Violated if the output path is that of an image.)", "quantifier": "all series of command lines and all files", "why_tests_cant": "tests start every run from the same files", "anchors": ["lib/main.cpp:main", "lib/main.cpp:read_image"]}
{"id": "C107", "title": "The technology asked for is used", "statement": "The labeling is computed by the technology named on the command line, whatever the case of the letters, and by the processor if none is named; the technology is announced on standard output, and a technology that is not built in is reported and nothing is computed.", "quantifier": "all builds, devices, command lines and files", "why_tests_cant": "a test covers a few names on one build", "anchors": ["lib/main.cpp:main"]}
{"id": "C108", "title": "Messages tell what is wrong", "statement": "A run prints at most one line on standard error, and none if it writes a map; the line names the first file that cannot be opened or is no image, or the requirement the problem violates together with the numbers that violate it, so that different mistakes can be told from the message; a message about a pixel without label names the first such pixel. (Violated for options that are not numbers and for numbers in files that do not fit.)", "quantifier": "all builds, devices, command lines and files", "why_tests_cant": "tests compare a few messages", "anchors": ["lib/main.cpp:main", "lib/main.cpp:read_image", "lib/disparity_graph.cpp:DisparityGraph", "lib/labeling_finder.cpp:build_disparity_map"]}
{"id": "C109", "title": "The amount of work is bounded", "statement": "With W x H pixels and L levels, one thread reads and writes the availability array at most WHL(16L+11) times in a call of solve_csp, at most WH(3L+WHL(16L+11)) times in find_labeling and at most WHL times in build_disparity_map; the search for the threshold calls solve_csp at most log2(2WHL) times, rounded up. A labeling that is found has cost at least 2(WH)^2 accesses, so the time is at least quadratic in the number of pixels.", "quantifier": "all well-formed problems of any size, all availability arrays, any limit of sweeps from two on", "why_tests_cant": "timings of a few images do not bound the work for all of them", "anchors": ["lib/constraint_graph.cpp:solve_csp", "lib/labeling_finder.cpp:find_labeling", "lib/labeling_finder.cpp:build_disparity_map", "lib/labeling_finder.cpp:calculate_minimal_consistent_threshold"]}
{"id": "C110", "title": "More disparity levels do not need a larger threshold", "statement": "If the same two images are processed with more disparity levels, every match allowed before is still allowed and costs the same, and the threshold found is not larger than before.", "quantifier": "all pairs of problems over the same images and weights, of any size, all sorting functions", "why_tests_cant": "it relates two runs for all images; the counterexample needs a match that fits well and cannot be used", "anchors": ["lib/labeling_finder.cpp:calculate_minimal_consistent_threshold", "lib/lowest_penalties.cpp", "lib/constraint_graph.cpp:solve_csp"]}
{"id": "C111", "title": "The threshold separates all values, not only the candidates", "statement": "For every value b, whether or not it is one of the candidates the bisection chooses from, solve_csp on a new constraint graph with the threshold b returns true exactly if the threshold found is at most b.", "quantifier": "all well-formed problems with weights that are not negative, all values b including infinities and NaN, all sorting functions", "why_tests_cant": "a test tries finitely many thresholds", "anchors": ["lib/labeling_finder.cpp:calculate_minimal_consistent_threshold", "lib/labeling_finder.cpp:fetch_available_penalties", "lib/constraint_graph.cpp:solve_csp"]}
{"id": "C112", "title": "A part of the images does not need a larger threshold", "statement": "If rows at the top or bottom or columns at a side of both images are cut off, the threshold found for the rest is not larger, and a labeling good enough for the whole is good enough for the rest.", "quantifier": "all problems of any size and all their parts, all sorting functions", "why_tests_cant": "it relates two runs for all images and all ways to cut them", "anchors": ["lib/labeling_finder.cpp:calculate_minimal_consistent_threshold", "lib/disparity_graph.cpp", "lib/constraint_graph.cpp:solve_csp"]}
{"id": "C113", "title": "A smoothness that outweighs the intensities gives a flat map", "statement": "If the flat map stays within a bound smaller than the smoothness, the map found is the flat one, on the CPU and on the devices. In every map found, steps between neighbors and the disparities themselves are limited by the brightest intensity, the weights and the distance to the right border.", "quantifier": "all accepted problems with penalties up to 2^53 (2^24 on devices), of any size, all sorting functions", "why_tests_cant": "it is about all images and all weights; the scenes for which no map is found although the flat one is optimal are a class no test enumerates", "anchors": ["lib/labeling_finder.cpp:find_labeling", "lib/labeling_finder.cpp:calculate_minimal_consistent_threshold", "lib/constraint_graph.cpp:solve_csp", "lib/disparity_graph.cpp"]}
{"id": "C114", "title": "The threshold follows the penalties", "statement": "If every penalty of a second problem exceeds the lowest possible one by at most d more than in the first problem, its threshold is at most d larger; smaller weights do not raise the threshold; a map found for one problem is within the sum of both differences of any labeling of the other one.", "quantifier": "all pairs of accepted problems with the same size and number of levels and penalties up to 2^53, all sorting functions", "why_tests_cant": "it relates two runs for all images and weights", "anchors": ["lib/labeling_finder.cpp:calculate_minimal_consistent_threshold", "lib/lowest_penalties.cpp", "lib/disparity_graph.cpp:edge_penalty", "lib/disparity_graph.cpp:node_penalty"]}
{"id": "C115", "title": "A little noise changes the result a little", "statement": "If every intensity changes by at most e, the threshold changes by at most 8cem, where c is the cleanness and m bounds the intensities; the map found for the noisy images is within 16cem of any labeling of the images without noise; and a map is found for the noisy images if one is found without the noise.", "quantifier": "all pairs of accepted problems of any size with penalties up to 2^53, all sorting functions", "why_tests_cant": "it relates two runs for all images and all noise", "anchors": ["lib/labeling_finder.cpp:calculate_minimal_consistent_threshold", "lib/labeling_finder.cpp:find_labeling", "lib/disparity_graph.cpp:node_penalty"]}
{"id": "C116", "title": "A lack of memory does not lead to a wrong map", "statement": "Whichever allocations fail, a run does what it does with enough memory, or writes no map: the output is left alone, and the status is 1, or a message complains about one of the files.", "quantifier": "all worlds with usable files, all command lines, all sorting functions, all choices of allocations that fail, in the build for one thread without OpenCL and CUDA", "why_tests_cant": "a test makes single allocations fail for single images", "anchors": ["lib/main.cpp:main", "lib/main.cpp:read_image", "lib/pgm_io.cpp:operator>>", "lib/pgm_io.cpp:read_pgm_instruction"]}
{"id": "C117", "title": "A lack of memory is reported", "statement": "A run that differs from the one with enough memory for lack of memory ends with a status other than 0.", "quantifier": "all worlds with usable files, all command lines, all sorting functions, all choices of allocations that fail", "why_tests_cant": "a test makes single allocations fail for single files; the library hides a failure only in words of more than 15 characters", "anchors": ["lib/main.cpp:main", "lib/main.cpp:read_image", "lib/pgm_io.cpp:read_pgm_instruction"]}
{"id": "C118", "title": "Files that break while they are read", "statement": "If the operating system reports an error while an image file is read, or the path is a directory, the application says that the file is not a correct image and writes nothing, even if a complete image was read before the error.", "quantifier": "all worlds with usable files of which any may break after any number of characters, all command lines, all sorting functions, all builds, devices and teams of threads", "why_tests_cant": "a test breaks single files at single places; a file may break within a word, within a comment, or after the last number", "anchors": ["lib/main.cpp:main", "lib/main.cpp:read_image", "lib/pgm_io.cpp:operator>>", "lib/pgm_io.cpp:read_pgm_instruction", "lib/pgm_io.cpp:check_file_end"]}
{"id": "C119", "title": "Without smoothness rows are solved independently", "statement": "If the smoothness is 0, rows do not restrict each other: one successful call of solve_csp shows that there is a labeling, the threshold computed is exactly the smallest one that admits a labeling, the labeling succeeds where nothing is to be removed at first (on the CPU and on orderly devices), and the application always finds a map. (The last part is violated; it holds for two disparity levels, where the map consists of the closest matches.)", "quantifier": "all problems with smoothness 0, all thresholds, all sorting functions, all builds, all orderly devices", "why_tests_cant": "a test shows single images; that one sweep decides the existence of a labeling is a claim about all of them, and the failing images are rare", "anchors": ["lib/constraint_graph.cpp:csp_solution_iteration", "lib/constraint_graph.cpp:solve_csp", "lib/labeling_finder.cpp:find_labeling", "lib/threshold_calculation.cpp:calculate_minimal_consistent_threshold", "lib/main.cpp:main"]}
{"id": "C120", "title": "Images one below the other", "statement": "Without smoothness the threshold for images that consist of two parts one below the other is the larger one of the thresholds for the parts, and labelings of the parts make a labeling of the whole within the same bound.", "quantifier": "all problems with smoothness 0, all places to cut, all sorting functions, all builds", "why_tests_cant": "a relation between three runs on images of any size", "anchors": ["lib/threshold_calculation.cpp:calculate_minimal_consistent_threshold", "lib/constraint_graph.cpp:solve_csp", "lib/lowest_penalties.cpp:LowestPenalties"]}
{"id": "C121", "title": "Independent rows make the OpenMP build deterministic", "statement": "If the rows do not restrict each other (one row, or smoothness 0), every schedule of the OpenMP build ends as the sequential build does. (With smoothness 0 this is violated where rows share a word of std::vector<bool>; it holds if the number of levels is a multiple of the 64 elements of a word, or for one row.)", "quantifier": "all schedules, all teams of threads that take each row once and access words one after another, all problems, files and options, all sorting functions", "why_tests_cant": "schedules cannot be enumerated, and the lost updates occur in rare interleavings only", "anchors": ["lib/constraint_graph.cpp:csp_solution_iteration", "lib/constraint_graph.cpp:solve_csp", "lib/constraint_graph.cpp:make_node_unavailable", "lib/labeling_finder.cpp:find_labeling", "lib/main.cpp:main"]}
{"id": "C122", "title": "A lack of memory in the other builds", "statement": "Built with OpenMP, OpenCL or CUDA, whichever allocations fail, a run does what a run with enough memory may do, or ends with the status 1 and leaves no map; the output file never holds anything but a complete map that a run with enough memory may write. (Violated as C116 and C117 are: an old output may be emptied, and a file with a word of more than 15 characters may be blamed with the status 0.)", "quantifier": "all choices of allocations that fail, all schedules and teams, all devices and failures of their libraries, all files, options and sorting functions", "why_tests_cant": "allocations cannot be made to fail one by one in all places, in combination with all schedules and failures of libraries", "anchors": ["lib/main.cpp:main", "lib/main.cpp:read_image", "lib/pgm_io.cpp:operator>>", "lib/constraint_graph.cpp:solve_csp", "lib/labeling_finder.cpp:find_labeling_cl", "lib/labeling_finder.cpp:find_labeling_cuda"]}
{"id": "C123", "title": "Runs of different builds one after another", "statement": "However runs of the sequential program and of those built with OpenMP, OpenCL and CUDA follow one another, no run faults, the files stay fit for all of them, only files named as output change, and they hold complete valid images; a map of one build can be an image of a run of another; a run influences later ones only through the images it replaces, and the order of runs that have no files in common does not matter.", "quantifier": "all series of command lines and builds, all schedules, teams and devices, all files", "why_tests_cant": "tests run one build from the same files; the combinations of builds and schedules cannot be enumerated", "anchors": ["lib/main.cpp:main", "lib/main.cpp:read_image", "lib/pgm_io.cpp:operator<<"]}
{"id": "C124", "title": "Several troubles in one run", "statement": "In every build, whichever allocations fail, whichever input files break while they are read and however few characters the output takes, all in the same run: the run does what a run without trouble may do, except that the output file may end early, or it ends with the status 1 and leaves no map, or it complains about an image. An output file that is not empty holds the first characters of a map of two images read completely, and readers reject it if more than the last line feed is missing. If an input file breaks, nothing is written and no output is emptied. (Violated as C105, C116 and C117 are: a file that ends early is not reported.)", "quantifier": "all combinations of failing allocations, breaking files and sizes of the disk, all schedules and teams, all devices and failures of their libraries, all files and options", "why_tests_cant": "the combinations of failures cannot be enumerated; a test can make one thing fail at a time", "anchors": ["lib/main.cpp:main", "lib/main.cpp:read_image", "lib/pgm_io.cpp:operator>>", "lib/pgm_io.cpp:operator<<", "lib/pgm_io.cpp:read_pgm_instruction", "lib/pgm_io.cpp:check_file_end"]}
{"id": "C125", "title": "The threads divide the work", "statement": "With W x H pixels, L levels and J threads, each thread of a round of the OpenMP build accesses the availability array at most ceil(H/J) WL(8L+4) + 3WHL times, and all of them together at most WHL(8L+4) + 3WHL min(J,H) times, whatever the schedule (a change counts as two accesses); a call of solve_csp makes at most twice as many. On a device a launch with A available matches takes at most WH(A+1)(L(8L+3)+10) steps. (Violated for calls of solve_csp where the elements of std::vector<bool> share words: lost updates may repeat the rounds any number of times.)", "quantifier": "all problems, numbers of threads, schedules, memories and word sizes; for launches all groups and kinds of barriers on sequentially consistent devices", "why_tests_cant": "timings with a few numbers of threads do not bound the work of all schedules", "anchors": ["lib/constraint_graph.cpp:solve_csp", "lib/constraint_graph.cpp:csp_solution_iteration", "lib/constraint_graph.cpp:csp_process_pixel", "lib/solve_csp.cl:csp_solution_iteration_gpu", "lib/solve_csp.cu:csp_solution_iteration_gpu"]}
{"id": "C126", "title": "PGM_IO objects share images, readings do not", "statement": "Every sequence of constructions, copies, moves, assignments, set_image, get_image, readings, writings, changes through pointers and destructions of PGM_IO objects and pointers does what it would do if images were never destroyed: copies share the image, so that changes are seen by all who share it and nobody else; reading gives the object an image of its own and leaves the images of all other variables alone; a reading that fails or throws changes no object; writing changes nothing; moves leave the source empty. No image is used after its end, and images exist exactly as long as somebody owns them.", "quantifier": "all programs of such statements and all texts read", "why_tests_cant": "tests try a few sequences, not all ways in which objects share images", "anchors": ["include/pgm_io.hpp:PGM_IO", "lib/pgm_io.cpp:PGM_IO", "lib/pgm_io.cpp:set_image", "lib/pgm_io.cpp:get_image", "lib/pgm_io.cpp:operator>>", "lib/pgm_io.cpp:operator<<"]}
{"id": "C127", "title": "The documented iteration and the solvers", "statement": "The iteration of the documentation, with markers of edges and without, comes to an end and leaves the nodes of arc-consistent sets; markers of edges follow from those of nodes; for problems of the application something is left exactly if there is a labeling. A propagation on a device as expected and repeated calls of solve_csp leave exactly that. One call of solve_csp does as well.", "quantifier": "all problems, all schedules of the device", "why_tests_cant": "the claims are about all sequences of iterations", "anchors": ["include/constraint_graph.hpp:csp-solution", "include/constraint_graph.hpp:memory-issue-solution", "lib/constraint_graph.cpp:solve_csp", "lib/solve_csp.cu:csp_iteration_cuda", "lib/solve_csp.cl:csp_iteration"]}
{"id": "C128", "title": "The energy of the maps", "statement": "A labeling within a threshold t of the lowest penalties, for any potentials, has an energy that exceeds the lowest energy by at most t for every pixel and every pair of neighbors; with the threshold 0 it minimizes the energy, as the documentation says. This holds for the maps that runs write, also on devices and by several threads, with the smallest threshold that any labeling needs. The maps minimize the energy, which is the problem that the documentation states.", "quantifier": "all problems, all potentials, all labelings", "why_tests_cant": "the claim compares the map with all labelings", "anchors": ["include/disparity_graph.hpp:problem-statement", "include/disparity_graph.hpp:dual-problem", "lib/labeling_finder.cpp:find_labeling", "lib/main.cpp:main"]}
{"id": "C129", "title": "Maps of closest matches; no factor bounds the energy", "statement": "If the closest match of every pixel keeps the order of pixels and no labeling stays within a smaller bound, the map shows these matches whatever the smoothness is: on images of one row always, on other images whenever a map is written. The energy of a map is at most some fixed multiple of the lowest energy.", "quantifier": "all problems with exact penalties; all factors from 1 to 2^23", "why_tests_cant": "the first claim is about all images, the second about all problems and all factors", "anchors": ["lib/labeling_finder.cpp:choose_best_node", "lib/labeling_finder.cpp:find_labeling", "lib/labeling_finder.cpp:calculate_minimal_consistent_threshold", "include/disparity_graph.hpp:problem-statement"]}
