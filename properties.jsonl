{"id": "C01", "title": "run_until performs exactly floor(T/dt) steps", "statement": "In exact arithmetic, run_until(T) on a line whose clock reads t0 performs exactly N=floor(T/dt) time steps (none if T<dt), leaves the clock at t0+N*dt, and N*dt <= T < (N+1)*dt. A second run_until(T) advances by another N steps, i.e. T is a duration and not an absolute end time.", "quantifier": "every line state, every real final time T>=0 and every dt>0, every number of consecutive run_until calls", "why_tests_cant": "a test fixes one T and one dt; the claim is about the floor for every real pair and for every history of earlier runs", "anchors": ["python/src/mtl.py:MTL.run_until", "python/src/mtl.py:MTL.get_time_range", "python/src/mtl.py:MTL.step"]}
{"id": "C02", "title": "set_time_step gives NDT steps exactly, but only in exact arithmetic", "statement": "In exact arithmetic set_time_step(NDT,T) followed by run_until(T) performs exactly NDT steps for every NDT>=1 and T>0. In binary64 arithmetic this fails: there are T and NDT for which floor(T/(T/NDT)) is NDT-1.", "quantifier": "every positive integer NDT and every positive real T; existence of a binary64 pair for the negative half", "why_tests_cant": "the failing binary64 pairs are sparse, and the exact claim ranges over all reals", "anchors": ["python/src/mtl.py:MTL.set_time_step", "python/src/mtl.py:MTL.get_time_range"]}
{"id": "C03", "title": "A probe present at run_until records every step exactly once, in order", "statement": "After run_until(T) every probe attached beforehand holds exactly N=floor(T/dt) frames; frame k of a voltage probe is the time t0+(k+1)dt and the node voltages just after step k+1; frame k of a current probe is stamped half a (probe) time step later and holds the current of the cell at the probe index, or of the last cell if the probe sits on the last node. No frame is lost, duplicated or reordered; an earlier run's frames are discarded.", "quantifier": "every line, probe position, probe type, number of steps and every previous history of the probe; arithmetic-independent for the bookkeeping", "why_tests_cant": "quantifies over the number of steps and over all previous probe contents", "anchors": ["python/src/probes.py:Probe.resize_frames", "python/src/probes.py:Probe.update", "python/src/mtl.py:MTL.run_until"]}
{"id": "C04", "title": "Frames appended past the allocated length are kept, except the very first one of a never-resized probe", "statement": "Stepping past the length allocated by run_until appends one new frame per step and leaves all earlier frames unchanged. A probe that was never resized (attached and then stepped manually) stores as its first value a live view of the line's array, so its first frame changes when the line is stepped again: the recorded history is not immutable.", "quantifier": "every number of manual steps after a run, every line state", "why_tests_cant": "aliasing only shows when the history is re-read after later steps; tests read the values once at the end of a run", "anchors": ["python/src/probes.py:Probe.update", "python/src/mtl.py:MTL.step"]}
{"id": "C05", "title": "Probes and sources attach to the nearest node, first one on ties", "statement": "The node index chosen for a probe, a voltage source, a resistance region or a field localisation is a valid node index, no node is strictly closer to the requested position, and every earlier node is strictly farther.", "quantifier": "every line geometry and every position in space (also off the line)", "why_tests_cant": "geometry and position range over all of space", "anchors": ["python/src/probes.py:Probe.__init__", "python/src/mtl.py:MTL.add_voltage_source", "python/src/mtl.py:MTL.set_resistance_in_region"]}
{"id": "C06", "title": "MTL.add_probe accepts exactly the axis-aligned box between first and last node", "statement": "MTL.add_probe raises ValueError exactly when some coordinate of the position is below the first node's or above the last node's coordinate. On lines whose coordinates all increase every node is accepted; on a line with a decreasing coordinate even positions on the line (such as its first node) are rejected.", "quantifier": "every geometry and position", "why_tests_cant": "tests only use increasing lines", "anchors": ["python/src/mtl.py:MTL.add_probe"]}
{"id": "C07", "title": "MTLD.add_probe accepts every point of the line and also a phantom cell past its end", "statement": "MTLD.add_probe accepts every point on a segment between consecutive nodes. It also accepts positions up to one cell beyond the last node, where there is no line; the probe then reads the nearest real node.", "quantifier": "every chained geometry and every position", "why_tests_cant": "ranges over all positions; the accepted overshoot is outside what tests try", "anchors": ["python/src/mtl.py:MTLD.add_probe", "python/src/utils.py:point_in_line"]}
{"id": "C08", "title": "An unknown probe type is only detected when stepping", "statement": "add_probe accepts any probe type string; the first step after it raises ValueError unless the type is 'voltage' or 'current', and with one of these two types updating a probe whose index is a node of the line never raises.", "quantifier": "every string", "why_tests_cant": "quantifies over all strings and all states", "anchors": ["python/src/probes.py:Probe.update", "python/src/mtl.py:MTL.add_probe"]}
{"id": "C09", "title": "Each step satisfies the discretised telegrapher's voltage equation", "statement": "After every step, at every interior node k: w_k*(C_k*(v'_k-v_k+eT_now-eT_prev)/dt + G_k*(v'_k+v_k+eT_now-eT_prev)/2) + i_k - i_(k-1) = 0 with w_k the mean of the two adjacent cell lengths, in exact arithmetic.", "quantifier": "every conductor count, cell count, non-uniform cell length, per-unit-length matrices, state, time and step", "why_tests_cant": "an identity over all matrices, sizes and states", "anchors": ["python/src/mtl.py:MTL.advance_voltage", "python/src/mtl.py:MTL.update_cg_terms", "python/src/mtl.py:MTLD.advance_voltage", "python/src/mtl.py:MTLD.update_cg_terms"]}
{"id": "C10", "title": "Each step satisfies the discretised telegrapher's current equation", "statement": "After every step, in every cell k: h_k*(L_k*(i'_k-i_k)/dt + R_k*(i'_k+i_k)/2 + d*(i'+i)/2 + e*(i'-i)/dt + Q1*i' + Q2*i + phi_k) + v'_(k+1) - v'_k + eT_(k+1) - eT_k = h_k*(eL_now+eL_prev)/2, where d,e,Q1,Q2,phi are the constant, proportional, pole terms and stored history of the dispersive model; without dispersive elements it is the plain lossy line equation.", "quantifier": "every conductor count, cell count, cell length, matrices, dispersive entries, state and step", "why_tests_cant": "an identity over all matrices, sizes and states", "anchors": ["python/src/mtl.py:MTL.advance_current", "python/src/mtl.py:MTL.update_lr_terms", "python/src/mtl.py:MTLD.advance_current", "python/src/mtl.py:MTLD.update_lr_terms"]}
{"id": "C11", "title": "Terminals obey the Thevenin half-cell equation", "statement": "At the two ends of an MTL: h*Z*(C*(v'-v+eT_now-eT_prev)/dt + G*(v'+v)/2) + v' + v = Vs_now + Vs_prev -/+ 2*Z*i, i.e. half a cell of line in parallel with the terminal impedance in series with the source averaged over the two previous sampling instants, minus/plus the adjacent cell current. With a zero impedance the mean of the two consecutive end voltages equals the mean of the source.", "quantifier": "every impedance matrix (also zero), matrices, states, steps", "why_tests_cant": "an identity over all matrices and states", "anchors": ["python/src/mtl.py:MTL.advance_left_terminal", "python/src/mtl.py:MTL.advance_right_terminal", "python/src/mtl.py:MTL.compute_terminal_terms"]}
{"id": "C12", "title": "Superposition", "statement": "For fixed line, time step and probes, the voltages and currents after any number of steps are linear in (initial state, terminal sources, external field): running with a*s1+b*s2 gives a times the result of s1 plus b times the result of s2.", "quantifier": "every line, pair of source/field/initial-state sets, pair of real coefficients and number of steps", "why_tests_cant": "a relation between three runs for all inputs and lengths", "anchors": ["python/src/mtl.py:MTL.step", "python/src/mtl.py:MTL.run_until"]}
{"id": "C13", "title": "Quiescence", "statement": "A line or a network of lines at rest with all sources and fields zero stays at rest: all voltages and currents are zero after any number of steps.", "quantifier": "every line and number of steps", "why_tests_cant": "unbounded number of steps and all lines", "anchors": ["python/src/mtl.py:MTL.step", "python/src/mtln.py:MTLN.step"]}
{"id": "C14", "title": "Disturbances travel at most one cell per step", "statement": "Two states of the same line that agree on voltages of nodes in [a,b] and currents of the adjacent cells agree, after n steps, on everything at distance at least n from the disagreement. In particular a probe d cells away from a source cannot see it before step d+1. This holds in floating point as well.", "quantifier": "every line, every window, every number of steps, every arithmetic (no numeric law is used)", "why_tests_cant": "unbounded steps and all pairs of states", "anchors": ["python/src/mtl.py:MTL.step", "python/src/mtl.py:MTL.advance_voltage", "python/src/mtl.py:MTL.advance_current"]}
{"id": "C15", "title": "Sources cannot act before their sampling instant (causality with one step of delay)", "statement": "The state after step n depends on a terminal source only through its values at times up to (n-1)*dt (t0=0): two sources equal up to that instant give equal states, so the response to Vs at (n+1)dt only contains Vs up to n*dt.", "quantifier": "every pair of sources, every n, every arithmetic", "why_tests_cant": "all sources and all steps", "anchors": ["python/src/mtl.py:MTL.update_sources", "python/src/mtl.py:MTL.advance_left_terminal"]}
{"id": "C16", "title": "Exact bounce diagram on the lossless single-conductor line", "statement": "For one lossless conductor with the default time step, any Zs,Zl>=0 and terminal sources that vanish for t<0, the computed node voltages are exactly the bounce diagram: v_k^n=f(n-k)+b(n-(N-k)) where f(m)=Z0/(Z0+Zs)*Vs((m-1)dt)+GammaS*b(m-N), b(m)=Z0/(Z0+Zl)*Vl((m-1)dt)+GammaL*f(m-N) for m>=1 (both zero for m<=0), with Z0=sqrt(l/c) and Gamma=(Z-Z0)/(Z+Z0).", "quantifier": "every l,c>0, length, number of cells, Zs,Zl>=0, sources, node and step", "why_tests_cant": "closed form for all parameters and all times; tests compare a few waveforms with tolerances", "anchors": ["python/src/mtl.py:MTL.__init__", "python/src/mtl.py:MTL.step", "python/src/mtl.py:MTL.get_max_timestep"]}
{"id": "C17", "title": "A matched lossless line is a pure delay", "statement": "With Zs=Zl=Z0 the voltage at node k after step n is half the source at time (n-1-k)*dt (zero before), for a source that vanishes at negative times: no reflection, no dispersion, no loss.", "quantifier": "every l,c>0, length, number of cells, source, node and step", "why_tests_cant": "all sources and all times", "anchors": ["python/src/mtl.py:MTL.step"]}
{"id": "C18", "title": "Energy never grows", "statement": "With symmetric L,C, positive semidefinite R,G and terminal impedances and no sources, the discrete energy 1/2<v,wCv>+1/2<i,hLi>+dt/2<i,Dv> does not increase in any step, and its decrease is exactly the power lost in R, G and the terminations.", "quantifier": "every conductor count, non-uniform cells, matrices, states and steps", "why_tests_cant": "inequality over all states and unbounded steps", "anchors": ["python/src/mtl.py:MTL.step"]}
{"id": "C19", "title": "The default time step is stable", "statement": "For a single conductor with any non-uniform cells, the default time step makes the discrete energy of C18 non-negative (and below it, positive definite), so with zero sources all voltages and currents stay bounded for ever by the initial energy when dt is below the default.", "quantifier": "every geometry, l,c>0, initial state and number of steps", "why_tests_cant": "boundedness for unbounded time", "anchors": ["python/src/mtl.py:MTL.get_max_timestep", "python/src/mtl.py:MTL.step"]}
{"id": "C20", "title": "Mirror symmetry", "statement": "Reversing a line end to end (cells, terminations and sources) gives exactly the mirrored voltages and sign-reversed mirrored currents after any number of steps.", "quantifier": "every line with per-cell matrices, state and number of steps", "why_tests_cant": "relation between two runs for all inputs", "anchors": ["python/src/mtl.py:MTL.step"]}
{"id": "C21", "title": "Uncoupled conductors do not interact", "statement": "If all matrices are diagonal, each conductor evolves exactly as a single-conductor line with the corresponding diagonal entries, sources and loads.", "quantifier": "every number of conductors, cells, states and steps", "why_tests_cant": "relation between a multi-conductor run and n single ones for all inputs", "anchors": ["python/src/mtl.py:MTL.step", "python/src/mtl.py:MTL.init_Zt"]}
{"id": "C22", "title": "Relabelling conductors relabels the result", "statement": "Permuting the conductors of the per-unit-length matrices, terminations and sources permutes voltages and currents accordingly after any number of steps.", "quantifier": "every permutation, line, state and number of steps", "why_tests_cant": "all permutations and runs", "anchors": ["python/src/mtl.py:MTL.step"]}
{"id": "C23", "title": "Runs compose", "statement": "run_until(T1) then run_until(T2) leaves the same voltages, currents and clock as floor(T1/dt)+floor(T2/dt) single steps, for any arithmetic; repeating the preparatory phase of run_until changes nothing.", "quantifier": "every line, T1, T2", "why_tests_cant": "relation between histories", "anchors": ["python/src/mtl.py:MTL.run_until"]}
{"id": "C24", "title": "Only sources at the two end nodes act", "statement": "A voltage source added at any interior node never influences voltages or currents; a source at an end node replaces any earlier source there (it is not superposed).", "quantifier": "every line, position, source and number of steps", "why_tests_cant": "all positions and all runs", "anchors": ["python/src/mtl.py:MTL.add_voltage_source", "python/src/mtl.py:MTL.step"]}
{"id": "C25", "title": "create_clean_copy resets the fields and clock but keeps everything else", "statement": "A clean copy has zero voltages, currents and clock and the same geometry, matrices, sources and terminations; without dispersive connectors running it gives the same result as running a freshly built equal line. The dispersive history is not reset, so with a connector the copy may start with a non-zero stored history.", "quantifier": "every line and every earlier history", "why_tests_cant": "all histories before the copy", "anchors": ["python/src/mtl.py:MTL.create_clean_copy"]}
{"id": "C26", "title": "Geometry of a line built with equal divisions per segment", "statement": "With the same number of divisions d in every segment, node i*d+k is at p_i + k*(p_(i+1)-p_i)/d, the last node is the last vertex, consecutive nodes differ by the stored cell vector and cell lengths are its norm: no cell is left uninitialised.", "quantifier": "every list of vertices and every d>=1", "why_tests_cant": "all polylines", "anchors": ["python/src/mtl.py:MTL.__init__"]}
{"id": "C27", "title": "Unequal divisions per segment break the geometry", "statement": "With different numbers of divisions per segment the constructor either raises IndexError (e.g. [2,3]) or leaves overwritten and uninitialised nodes and zero-length cells (e.g. [3,2]); the good geometry of C26 does not hold.", "quantifier": "existence, over per-segment division lists", "why_tests_cant": "the uninitialised memory may contain anything, a test sees one value", "anchors": ["python/src/mtl.py:MTL.__init__"]}
{"id": "C28", "title": "Constructor argument checks for L and C", "statement": "The constructor accepts exactly two floats, or two square arrays of equal shape, for l and c; anything else raises, and on success every cell/node holds a copy of the given matrix with number_of_conductors equal to its size.", "quantifier": "every combination of argument kinds and shapes", "why_tests_cant": "all shapes", "anchors": ["python/src/mtl.py:MTL.init_LC"]}
{"id": "C29", "title": "Constructor argument checks for R and G", "statement": "Scalar r or g is accepted when zero or when there is one conductor; an array must be square of the conductor count; otherwise the constructor raises. The stored value is the given one in every cell/node.", "quantifier": "every argument kind and shape", "why_tests_cant": "all shapes", "anchors": ["python/src/mtl.py:MTL.init_RG"]}
{"id": "C30", "title": "Terminal impedances become diagonal matrices", "statement": "Two scalars or two equally shaped vectors (flat, row or column) of conductor-count length give exactly the diagonal matrices with these entries; mixing a scalar and an array raises ValueError.", "quantifier": "every argument kind and shape", "why_tests_cant": "all shapes", "anchors": ["python/src/mtl.py:MTL.init_Zt"]}
{"id": "C31", "title": "Default time step", "statement": "For one conductor the default time step is (smallest non-zero cell length)*sqrt(l*c); it is positive for l,c>0 and, as every cell, satisfies dt*velocity <= cell length.", "quantifier": "every l,c>0 and geometry", "why_tests_cant": "all parameters", "anchors": ["python/src/mtl.py:MTL.get_max_timestep", "python/src/mtl.py:MTL.get_phase_velocities"]}
{"id": "C32", "title": "Changing the time step after construction leaves the terminations at the old one", "statement": "set_time_step changes the time step used inside the line but not the terminal update coefficients: the Thevenin equation of C11 then holds with the construction-time step, not the current one, so terminals are wrong unless the step is unchanged. For a purely resistive end (c=0 at the node) they agree.", "quantifier": "every line and new time step", "why_tests_cant": "relation between construction-time and run-time parameters for all values", "anchors": ["python/src/mtl.py:MTL.set_time_step", "python/src/mtl.py:MTL.compute_terminal_terms"]}
{"id": "C33", "title": "What set_resistance_in_region writes", "statement": "set_resistance_in_region(start,end,c,R) changes row c of the resistance matrix of the single cell number i1+c (i1 = cell nearest start) to R/length in every column and nothing else, or raises IndexError if that cell is outside the region. Hence for conductor 0 of a single-conductor line at one point it is what the name says; for a region of several cells only one cell is set; for conductor c>=1 at a point it always raises. A bundle does the same at any time of its life, except that its last node is not replaced by the last cell: a region that is only the far end always raises IndexError.", "quantifier": "every line, region, conductor, resistance", "why_tests_cant": "all regions and conductors; tests use conductor 0 at a point", "anchors": ["python/src/mtl.py:MTL.set_resistance_in_region", "python/src/mtl.py:MTL.set_resistance_at_point", "python/src/mtl.py:MTLD.set_resistance_in_region"]}
{"id": "C34", "title": "MTL.add_conductance_in_region ignores the position on z-aligned lines", "statement": "MTL.add_conductance_in_region chooses its node by a flattened array index: for float positions on a line along z it always writes node 0 whatever the position. The MTLD version uses the nearest node: it fills row c of the node c places after the one nearest the start of the region with the conductance divided by the length of the region, at any time of the bundle's life, and changes nothing else; otherwise it raises IndexError. MTL.add_conductance_at_point is the same for a region of one point: for conductor 0 it writes node 0 of a z-aligned line, for any other conductor it always raises.", "quantifier": "every z-aligned line, position, conductance", "why_tests_cant": "all positions", "anchors": ["python/src/mtl.py:MTL.add_conductance_in_region", "python/src/mtl.py:MTLD.add_conductance_in_region"]}
{"id": "C35", "title": "square_pulse and triangle_pulse have support [0,x0] and stay within [0,A]", "statement": "For x0>0, A>=0: both are zero outside [0,x0]; the square equals A on it; the triangle equals A*x/x0 on it; both stay in [0,A].", "quantifier": "every real x, A, x0", "why_tests_cant": "continuum of inputs", "anchors": ["python/src/waveforms.py:square_pulse", "python/src/waveforms.py:triangle_pulse"]}
{"id": "C36", "title": "ramp_pulse is a ramp then a plateau, except at the corner where it doubles", "statement": "ramp_pulse is 0 before 0, A*x/x0 up to x0, A after x0, non-decreasing and bounded by A everywhere except at exactly x=x0, where it returns 2A.", "quantifier": "every real x, A>=0, x0>0", "why_tests_cant": "measure-zero exceptional point", "anchors": ["python/src/waveforms.py:ramp_pulse"]}
{"id": "C37", "title": "trapezoidal_wave is periodic and within [0,A] except at its two upper corners", "statement": "trapezoidal_wave has period 1/f0, is in [0,A] at every time whose phase is not exactly the end of rise or start of fall, and equals 2A at these two phases (0<rise, 0<fall, flat part >0, total within the period).", "quantifier": "every real time and parameter set in the stated range", "why_tests_cant": "continuum of inputs, exceptional points of measure zero", "anchors": ["python/src/waveforms.py:trapezoidal_wave"]}
{"id": "C38", "title": "sin_sq_pulse, gaussian, gaussian_2 and exp have the expected bounds and support", "statement": "sin_sq_pulse(x,A,w>0) is 0 outside [0,pi/w) and in [0,A] inside; gaussian is in (0,1], symmetric about x0, equal to 1 only there; gaussian_2 likewise scaled by A; exp rises from 0 at x=0, is increasing and stays below A for x0>0.", "quantifier": "every real x and parameters", "why_tests_cant": "continuum of inputs", "anchors": ["python/src/waveforms.py:sin_sq_pulse", "python/src/waveforms.py:gaussian", "python/src/waveforms.py:gaussian_2", "python/src/waveforms.py:exp"]}
{"id": "C39", "title": "add_t_functions and multiply are pointwise", "statement": "add_t_functions returns the pointwise sum of two functions of t, treating any integer as the zero function (two integers give 0); multiply scales pointwise; adding is commutative and associative pointwise for functions.", "quantifier": "all functions and times", "why_tests_cant": "all functions", "anchors": ["python/src/utils.py:add_t_functions", "python/src/utils.py:multiply"]}
{"id": "C40", "title": "point_in_line", "statement": "point_in_line accepts every point start+s*(end-start) with 0<=s<=1, and every accepted point is within the segment's length of both ends and within an absolute cross-product tolerance of 1e-6; for segments shorter than 1 mm this tolerance accepts points well off the line.", "quantifier": "all points and segments", "why_tests_cant": "continuum", "anchors": ["python/src/utils.py:point_in_line"]}
{"id": "C41", "title": "Dispersive connector coefficients are the exact piecewise-linear convolution weights", "statement": "For every complex pole p<>0 and residue r, the pair (q1,q2) computed for a connector are exactly the integrals of (r)*e^(p*(dt-s)) against the linear interpolation basis on one step, and q3 = e^(p dt): convolving a current that is linear over the step with the pole's impulse response gives q1*i_new+q2*i_old+q3*history.", "quantifier": "every complex pole, residue and positive step; currents linear per step", "why_tests_cant": "integral identity for all parameters", "anchors": ["python/src/dispersive.py:DispersiveConnector.add_dispersive_connector"]}
{"id": "C42", "title": "The stored dispersive history uses the new current twice", "statement": "advance_current updates the stored history with the new current in place of the old one: phi' = (q1+q2)*i' + q3*phi. It equals the intended q1*i'+q2*i+q3*phi exactly when q2*(i'-i)=0; there is a reachable state where it differs.", "quantifier": "every line with connectors, every state", "why_tests_cant": "aliasing effect, small in tests with slowly varying currents", "anchors": ["python/src/mtl.py:MTL.advance_current", "python/src/mtl.py:MTLD.advance_current", "python/src/dispersive.py:Dispersive.update_phi"]}
{"id": "C43", "title": "A transfer impedance with direction 'both' is silently ignored", "statement": "add_transfer_impedance and the connector version change nothing when direction is 'both' (or any string other than 'in' and 'out').", "quantifier": "every transfer impedance model, level and conductor lists", "why_tests_cant": "all strings and models", "anchors": ["python/src/dispersive.py:TransferImpedance.add_transfer_impedance", "python/src/dispersive.py:TransferImpedance.set_transfer_impedance_at_index"]}
{"id": "C44", "title": "A directional transfer impedance couples exactly the listed conductor pairs", "statement": "direction 'in' subtracts the model from entries (inner,outer), 'out' from (outer,inner) of every cell, for exactly the listed conductors (no conductor listed twice) offset by the conductors of the previous levels; all other entries are unchanged (with several poles see C81); the connector version replaces instead of subtracting and touches only the first or last cell; levels that are not adjacent are rejected.", "quantifier": "every level structure, list of conductors and model", "why_tests_cant": "all level structures", "anchors": ["python/src/dispersive.py:TransferImpedance.add_transfer_impedance"]}
{"id": "C45", "title": "A one-directional transfer impedance with poles has no memory", "statement": "If the only dispersive entries couple outer conductors into inner conductors (no connector poles on them), the history contribution to the current update is identically zero at every step: the pole terms act only through the two most recent currents.", "quantifier": "every such bundle, every state reached by stepping", "why_tests_cant": "invariant over unbounded steps", "anchors": ["python/src/dispersive.py:Dispersive.update_q3_phi_term", "python/src/dispersive.py:TransferImpedance.add_transfer_impedance"]}
{"id": "C46", "title": "An all-zero transfer impedance is a no-op", "statement": "A model with zero constant and proportional terms and no poles leaves the bundle unchanged, whatever its direction.", "quantifier": "every bundle, level, conductors", "why_tests_cant": "all bundles", "anchors": ["python/src/dispersive.py:TransferImpedance.add_transfer_impedance"]}
{"id": "C47", "title": "At most one dispersive connector per conductor and cell; none at the last node", "statement": "Adding a connector at the last node raises IndexError; adding a second one to a conductor and cell that already has a non-zero constant or proportional term, or any pole list, raises; on success exactly the entry of that cell and conductor changes.", "quantifier": "every line, positions, models", "why_tests_cant": "all sequences of additions", "anchors": ["python/src/dispersive.py:DispersiveConnector.add_dispersive_connector"]}
{"id": "C48", "title": "Bundle assembly is block diagonal", "statement": "The matrices of an MTLD are the block-diagonal composition, level by level and line by line, of its lines' matrices; the number of conductors and conductors_in_level add up; the time step is the smallest of the lines'; all lines must share the outer line's nodes and the outermost level must have exactly one line.", "quantifier": "every list of levels and lines", "why_tests_cant": "all level structures", "anchors": ["python/src/mtl.py:MTLD.__init__"]}
{"id": "C49", "title": "Lines in a bundle without transfer impedance do not interact", "statement": "Inside an MTLD without transfer impedance and whose lines have no dispersive elements each line's interior voltages and currents advance exactly as if the line were alone with the bundle's time step.", "quantifier": "every bundle, state, number of steps", "why_tests_cant": "relation between runs", "anchors": ["python/src/mtl.py:MTLD.advance_voltage", "python/src/mtl.py:MTLD.advance_current"]}
{"id": "C50", "title": "Longitudinal field sources accumulate", "statement": "add_localized_longitudinal_field adds to the existing field (it never replaces it) and touches only the given conductor. On a straight bundle, with the start before a node that is before the end, each cell gets the given magnitude times the fraction of the cell lying between the two positions (start: on a node or past the middle of the first cell); for positions on nodes every cell between gets exactly the given magnitude (divided by the number of cells for 'Planewave'). An end past the middle of the last cell but not on the last node raises IndexError.", "quantifier": "every bundle, positions, magnitudes", "why_tests_cant": "all positions", "anchors": ["python/src/mtl.py:MTLD.add_localized_longitudinal_field"]}
{"id": "C51", "title": "The network step satisfies the discretised Kirchhoff current law", "statement": "After each network voltage step: dx*C*(v'-v)/dt = I(new)+I(old) - 2*i_line - dx*C*(eT_now-eT_prev)/dt where I collects the resistor, source, capacitor and state-variable branch currents; the state variables satisfy backward Euler x' = x + dt*(M x' + N v' + Ns*vs).", "quantifier": "every network (any stamps), state and step", "why_tests_cant": "identity for all matrices", "anchors": ["python/src/networks.py:Network.advance_voltage", "python/src/networks.py:Network.compute_v_terms"]}
{"id": "C52", "title": "Resistor stamps between nodes conserve current and are passive", "statement": "For any sequence of connect_nodes/short_nodes calls with positive resistances the branch current matrix is symmetric, has zero row sums, and v^T P v <= 0 for every v; the result does not depend on the order of the calls.", "quantifier": "every sequence of calls", "why_tests_cant": "all sequences", "anchors": ["python/src/networks.py:Network.connect_nodes", "python/src/networks.py:Network.short_nodes"]}
{"id": "C53", "title": "connect_to_ground overwrites, so call order matters", "statement": "connect_to_ground sets the diagonal to -1/R, discarding whatever connect_nodes added before on that node; performed before connect_nodes both contributions are kept. Grounding the same node twice keeps only the last resistor (not the parallel combination).", "quantifier": "every network and call sequence", "why_tests_cant": "all call orders", "anchors": ["python/src/networks.py:Network.connect_to_ground", "python/src/networks.py:Network.connect_nodes"]}
{"id": "C54", "title": "Two sourced branches on one node interfere", "statement": "With a single sourced branch between two nodes the source term is +-Vt/R at its nodes. With two sourced branches sharing a node the source current at that node is (1/R1+1/R2 with signs)*(Vt1+Vt2) instead of the sum of the individual terms, so superposition of branches fails.", "quantifier": "every pair of branches", "why_tests_cant": "all source pairs", "anchors": ["python/src/networks.py:Network.connect_nodes"]}
{"id": "C55", "title": "A source to ground with zero resistance fails", "statement": "connect_to_ground with R=0 and a source raises ZeroDivisionError (Python numbers); with R=0 and no source it changes nothing, leaving the node open. connect_to_ground_LCpRs is accepted exactly on a terminal with two state variables and with R>0, L>0, C other than zero and below 1e22 (negative capacitances pass); it raises AssertionError exactly when R<0, L<0 or C>=1e22.", "quantifier": "every network and node, every R, L, C", "why_tests_cant": "all networks and values", "anchors": ["python/src/networks.py:Network.connect_to_ground", "python/src/networks.py:Network.connect_to_ground_LCpRs", "python/src/networks.py:Network.connect_to_ground_R"]}
{"id": "C56", "title": "The series-R parallel-LC termination is not passive", "statement": "connect_to_ground_LCpRs stamps dvc/dt = +vc/(RC)+iL/C - v/(RC): for R,C>0 the isolated state equation with grounded line end has a growing solution (its matrix has positive trace), and the backward Euler step with small dt increases the stored state, whereas the circuit it stands for is dissipative.", "quantifier": "every R,L,C>0 and small enough dt", "why_tests_cant": "all parameters", "anchors": ["python/src/networks.py:Network.connect_to_ground_LCpRs"]}
{"id": "C57", "title": "Node bookkeeping", "statement": "After construction every node id is unique and non-negative, node indices are exactly 0..n-1 in (line, conductor) order, state-variable index ranges are disjoint, consecutive and cover 0..m-1, and duplicated ids are rejected.", "quantifier": "every description", "why_tests_cant": "all descriptions", "anchors": ["python/src/networks.py:Network.__init__", "python/src/networks.py:Network._add_node"]}
{"id": "C58", "title": "Network and line exchange only the mapped end values", "statement": "update_voltages writes exactly the mapped end voltages of the bundles and nothing else; update_currents reads exactly the mapped end currents with sign +1 at the start and -1 at the end of a line.", "quantifier": "every network and bundle set", "why_tests_cant": "frame condition over all entries", "anchors": ["python/src/networks.py:Network.update_voltages", "python/src/networks.py:Network.update_currents"]}
{"id": "C59", "title": "Index shifting is applied once per registration", "statement": "Registering a tiered network shifts each node's conductor index by the number of conductors in the bundle's previous levels; registering the same network again (for instance running a parsed problem twice) shifts again, so the indices are right only after exactly one registration; level 0 networks are unaffected.", "quantifier": "every bundle and network, any number of registrations", "why_tests_cant": "histories of registrations", "anchors": ["python/src/networks.py:NetworkD.update_index_numbers", "python/src/mtln.py:MTLN.add_network", "python/src/jsonParser.py:Parser.run"]}
{"id": "C60", "title": "Lines sharing a level collide", "statement": "If a level holds several lines, the conductor index of a node of the second line is not shifted by the first line's conductors: two different conductors are mapped to the same bundle row.", "quantifier": "every bundle with several lines in a level", "why_tests_cant": "all bundles", "anchors": ["python/src/networks.py:NetworkD.update_index_numbers"]}
{"id": "C61", "title": "A resistively terminated single-line network equals the stand-alone line", "statement": "A bundle with one lossless-shunt (g=0) line whose two ends are connected to ground through resistors Rs,Rl and sources Vs,Vl gives, at every step, the same voltages and currents as the stand-alone MTL with Zs=Rs, Zl=Rl and the same sources; with g<>0 at the ends it does not.", "quantifier": "every such line, resistances, sources and number of steps", "why_tests_cant": "relation between two solvers for all inputs", "anchors": ["python/src/mtln.py:MTLN.step", "python/src/mtl.py:MTL.step", "python/src/networks.py:Network.advance_voltage"]}
{"id": "C62", "title": "Bundle registration", "statement": "A network of lines uses the smallest time step of its bundles (steps of 1e10 or more, the initial value, are ignored); bundle names are unique (duplicates raise AssertionError); bundles are kept in insertion order.", "quantifier": "every sequence of additions", "why_tests_cant": "all sequences", "anchors": ["python/src/mtln.py:MTLN.add_bundle"]}
{"id": "C63", "title": "An end attached to no network never changes", "statement": "A bundle end row not mapped by any network keeps its initial voltage for ever.", "quantifier": "every network of lines, any number of steps", "why_tests_cant": "frame condition, unbounded steps", "anchors": ["python/src/mtln.py:MTLN.step"]}
{"id": "C64", "title": "Order of bundles and networks is irrelevant", "statement": "Swapping bundles, or networks mapping disjoint line ends, gives the same voltages and currents at every step (any arithmetic).", "quantifier": "every problem, every permutation, any number of steps", "why_tests_cant": "all permutations", "anchors": ["python/src/mtln.py:MTLN.step"]}
{"id": "C65", "title": "Bundles with different own time steps are marched inconsistently", "statement": "Without an explicit dt the bundle coefficients use the bundle's own time step while clocks and networks use the global minimum: if two bundles differ, the slower one does not satisfy its telegrapher equation with the network's step. With an explicit dt all bundles satisfy it.", "quantifier": "existence and all dt for the positive half", "why_tests_cant": "relation between configuration and equations", "anchors": ["python/src/mtln.py:MTLN.run_until"]}
{"id": "C66", "title": "Current probe stamps in a network keep the construction-time step", "statement": "MTLN.run_until(T,dt) stamps current probes half of the bundle's construction-time step after the voltages, not dt/2; voltage stamps are (k+1)*dt exactly.", "quantifier": "every bundle and dt", "why_tests_cant": "all dt", "anchors": ["python/src/mtln.py:MTLN.run_until", "python/src/probes.py:Probe.update"]}
{"id": "C67", "title": "Superposition of the whole network", "statement": "For a fixed network of lines, voltages and currents after any number of steps are linear in the sources, fields and initial state.", "quantifier": "every problem, coefficient, number of steps", "why_tests_cant": "relation between three runs", "anchors": ["python/src/mtln.py:MTLN.step"]}
{"id": "C68", "title": "Plane-wave directions are a right orthonormal pair", "statement": "For all angles the polarisation vector has unit length and is orthogonal to the propagation direction (cos p, sin p cos z, sin p sin z), and the slowness computed from compute_velocities points opposite to it with magnitude 1/v whenever no component vanishes. MTL.add_planewave adds the external field of the wave moving at the largest phase velocity of all cells and modes of the line; MTLN.add_planewave raises AttributeError as soon as there is a bundle.", "quantifier": "all real angles and v>0, all lines and networks of lines", "why_tests_cant": "continuum", "anchors": ["python/src/mtl.py:PlaneWave.compute_directions", "python/src/mtl.py:PlaneWave.compute_velocities", "python/src/mtl.py:MTL.add_planewave", "python/src/mtln.py:MTLN.add_planewave"]}
{"id": "C69", "title": "rotate_to_segment aligns the segment with +z only for segments going up", "statement": "The rotation applied by rotate_to_segment maps u to |u|*z when u_z>0, and to a different direction when u_z<0.", "quantifier": "all segments", "why_tests_cant": "continuum", "anchors": ["python/src/mtl.py:PlaneWave.rotate_to_segment"]}
{"id": "C70", "title": "Power waves of a port", "statement": "For a positive reference impedance the incident and reflected waves satisfy |a|^2-|b|^2 = Re(v*conj(i)), a+b = v/sqrt(z0), and b=0 iff v=z0*i; a zero reference impedance is rejected.", "quantifier": "all complex v,i and real z0>0", "why_tests_cant": "continuum", "anchors": ["python/src/probes.py:Port.get_incident_and_reflected_power_wave"]}
{"id": "C71", "title": "S-parameter extraction assembles columns from the driven port", "statement": "The 2x2 matrix has, in each column, the ratio of outgoing waves to the incident wave of the run in which that column's port is driven; swapping the two ports transposes indices consistently. Through the public entry point the extraction currently always raises AttributeError because it reads a node-coordinate attribute that lines do not have.", "quantifier": "all spectra", "why_tests_cant": "all spectra and ports", "anchors": ["python/src/networkExtraction.py:extract_2p_network", "python/src/networkExtraction.py:extract_s_reciprocal", "python/src/mtl.py:MTL.add_port_probe"]}
{"id": "C72", "title": "Nested cables become a tree of levels", "statement": "For every nesting description, the graph has one vertex per listed element with level equal to its nesting depth, one edge from each element to every element nested directly in it and no other edges.", "quantifier": "every nesting of any depth and width", "why_tests_cant": "unbounded recursive structures", "anchors": ["python/src/jsonParser.py:Parser._buildGraphFromConnections"]}
{"id": "C73", "title": "Conductor number inside a level", "statement": "The conductor number used for a transfer impedance is the element's position in its cable plus the conductors of the lines placed before it in the level; it addresses that element's row whatever order the lines are placed in.", "quantifier": "every level, every ordering of its lines", "why_tests_cant": "set iteration order is unspecified, a test sees one order", "anchors": ["python/src/jsonParser.py:Parser._findConductorNumberInLevel", "python/src/jsonParser.py:Parser._buildBundles"]}
{"id": "C74", "title": "Line ends are found by coordinate id", "statement": "_getElementOfNode returns the first line whose first or last coordinate is the node, with side 'initial' or 'end' accordingly, and raises when there is none; when two lines share an end coordinate only the first is ever found.", "quantifier": "every list of line strings", "why_tests_cant": "all lists", "anchors": ["python/src/jsonParser.py:Parser._getElementOfNode"]}
{"id": "C75", "title": "Networks at the same coordinate and level: only the last survives", "statement": "Terminations (or junctions) are grouped by the coordinates of their first node; inside a group one network per level is kept, so two terminations at the same coordinates and level silently lose the first. Groupings partition the list: every termination is in exactly one group.", "quantifier": "every list of terminations", "why_tests_cant": "all lists", "anchors": ["python/src/jsonParser.py:Parser._buildTerminations", "python/src/jsonParser.py:Parser._getNetworkTerminationList", "python/src/jsonParser.py:Parser._buildJunctions"]}
{"id": "C76", "title": "Lists of connectors are indexed by conductor number", "statement": "In a multi-node termination the connector and source used for a node are those at position 'conductor number' of the list, which is the node's own entry exactly when the nodes are listed in conductor order.", "quantifier": "every list of nodes", "why_tests_cant": "all permutations", "anchors": ["python/src/jsonParser.py:Parser._buildTerminations"]}
{"id": "C77", "title": "Lumped elements: all cables must have one or none may", "statement": "If at least one lumped element is declared, building any line whose cable has none raises IndexError, and a cable with several uses only the first.", "quantifier": "every model", "why_tests_cant": "all models", "anchors": ["python/src/jsonParser.py:Parser._addLumpedElement"]}
{"id": "C78", "title": "Unknown source types are not zero sources", "statement": "A source of unknown magnitude type builds a function returning None rather than 0; known types return the corresponding waveform.", "quantifier": "every type string and time", "why_tests_cant": "all strings", "anchors": ["python/src/jsonParser.py:Parser._buildSource"]}
{"id": "C79", "title": "A second external field replaces the first", "statement": "add_external_field overwrites longitudinal and transversal terms in the illuminated cells, so two fields are not superposed; and the term at the last node is evaluated at the position of the last processed cell's node, not at the last node.", "quantifier": "every pair of fields and geometry", "why_tests_cant": "all fields", "anchors": ["python/src/mtl.py:MTL.add_external_field", "python/src/mtl.py:MTLD.add_external_field"]}
{"id": "C80", "title": "Networks ignore fields added to bundles after their construction", "statement": "The transversal field used at a network node is the one stored in the line when the network was built; fields added later to the bundle change the interior but not the terminals.", "quantifier": "every bundle, field", "why_tests_cant": "histories of calls", "anchors": ["python/src/networks.py:Network._add_node", "python/src/mtln.py:MTLN.add_external_field"]}
{"id": "C81", "title": "The number of poles of a distributed transfer impedance must be 1 or the number of cells", "statement": "add_transfer_impedance with a model of np poles and direction 'in' or 'out': with one pole the pole is added to every cell; with np equal to the number of cells (np>1) pole number k is added to cell k only, so each cell gets a different one-pole impedance; with any other np>1 it raises ValueError.", "quantifier": "every model, level structure and number of cells", "why_tests_cant": "numpy broadcasting picks a different meaning for each length", "anchors": ["python/src/dispersive.py:TransferImpedance.add_transfer_impedance"]}
{"id": "C82", "title": "Pulses with a spatial shift: values outside their support", "statement": "ramp_pulse_sp takes negative values before its start (A*(t)/x0 with t<0), unlike ramp_pulse which is 0 there.", "quantifier": "every amplitude, rise time and negative time", "why_tests_cant": "all reals", "anchors": ["python/src/waveforms.py:ramp_pulse_sp"]}
{"id": "C83", "title": "Two connectors with different numbers of poles in one cell break the run", "statement": "After adding, in the same cell, a dispersive connector with p<>1 poles on one conductor and one with q<>1 poles, q<>p, on another conductor, the second time step raises ValueError although both additions are accepted.", "quantifier": "existence of such a line; every pair p<>q", "why_tests_cant": "interaction of two accepted calls that only fails one step later", "anchors": ["python/src/dispersive.py:DispersiveConnector.add_dispersive_connector", "python/src/mtl.py:MTL.step"]}
{"id": "C84", "title": "A physical line never raises", "statement": "With L,C positive definite, R,G positive semidefinite, non-negative terminal impedances, cells of positive length, no dispersive elements and only voltage/current probes, the constructor succeeds and run_until(T) returns for every T without raising.", "quantifier": "every such line (any number of conductors and cells), every T", "why_tests_cant": "needs invertibility of every matrix the code inverts, for all matrices", "anchors": ["python/src/mtl.py:MTL.__init__", "python/src/mtl.py:MTL.run_until"]}
{"id": "C85", "title": "Dispersive coefficients keep the construction-time step", "statement": "A dispersive connector added after set_time_step gets pole weights computed with the time step the line was built with, while the line marches with the new one.", "quantifier": "every line, new step, position and model", "why_tests_cant": "relation between call order and coefficients for all models", "anchors": ["python/src/dispersive.py:DispersiveConnector.add_dispersive_connector", "python/src/mtl.py:MTL.set_time_step"]}
{"id": "C86", "title": "A one-pole connector is counted q times next to a q-pole connector", "statement": "If a cell has a one-pole connector on one conductor and a q-pole connector (q<>1) on another, then from the second step on the memory of the one-pole connector enters the current update q times (so it is erased for q=0).", "quantifier": "every such line, every q<>1 and step", "why_tests_cant": "numpy broadcasting of the history array, depends on a neighbour conductor", "anchors": ["python/src/dispersive.py:Dispersive.update_q3_phi_term", "python/src/dispersive.py:Dispersive.update_phi"]}
{"id": "C87", "title": "A physical line with passive connectors never raises", "statement": "With the conditions of C84 and dispersive connectors with non-negative constant and proportional terms, real negative poles and real non-negative residues, where the connectors of one cell have one pole or a common number of poles, run_until(T) returns for every T without raising and keeps the shape of the line.", "quantifier": "every such line, number of connectors and T", "why_tests_cant": "invertibility of every matrix the code inverts and broadcast compatibility of every history array", "anchors": ["python/src/mtl.py:MTL.run_until", "python/src/dispersive.py:Dispersive.update_q3_phi_term"]}
{"id": "C88", "title": "A network of resistors and capacitors never raises", "statement": "If the lines of a network have positive definite end capacitances and cells of positive length, all their conductors are connected, grounds (resistors R>0, capacitors, shorts, with function sources or none) are declared before the branches between nodes (R>0, shorts) and no termination has state variables, every call on known nodes is accepted, the terms can be computed and every voltage step returns, for any positive time step.", "quantifier": "every such network (any number of lines, conductors and calls), dt>0, number of steps", "why_tests_cant": "needs invertibility of the assembled matrix for all networks", "anchors": ["python/src/networks.py:Network.advance_voltage", "python/src/networks.py:Network.compute_v_terms"]}
{"id": "C89", "title": "A network of physical lines joined by resistors and capacitors runs without raising", "statement": "If the bundles of a network of lines are made of physical lines (positive lengths, positive definite C and L, semidefinite G and R, no dispersive element), every network is a circuit of resistors, capacitors and shorts (grounds declared before branches) with every conductor connected, and every node is on a registered bundle, run_until(T,dt) with dt>0 (or without dt if the own steps are positive) returns for every T, and the result can be run again.", "quantifier": "every such network of lines, T, dt>0", "why_tests_cant": "totality needs invertibility of every matrix met in any number of steps", "anchors": ["python/src/mtln.py:MTLN.run_until", "python/src/networks.py:NetworkD.advance_voltage", "python/src/mtl.py:MTLD"]}
{"id": "C90", "title": "Energy of the waves of a port (Parseval)", "statement": "Summed over all frequencies, the power carried by the waves a port reports, |a|^2-|b|^2, equals the number of recorded frames times the sum over the frames of voltage times current entering the port (voltage: mean of the two nodes; current: mean of consecutive half steps, the first counted twice; sign reversed at the far end).", "quantifier": "every recorded port, every number of frames, every positive reference impedance", "why_tests_cant": "identity over all spectra and all lengths", "anchors": ["python/src/probes.py:Port.get_incident_and_reflected_power_wave", "python/src/probes.py:Port.get_v_i_fft"]}
{"id": "C91", "title": "A shield must have a transfer impedance", "statement": "A document with a cable nested inside a cable whose material has no transfer impedance is never read: building the bundle raises AttributeError, although the transfer impedance is optional elsewhere.", "quantifier": "every document, every nesting", "why_tests_cant": "all documents", "anchors": ["python/src/jsonParser.py:Parser._setBundleTransferImpedance", "python/src/jsonParser.py:Parser._getTransferImpedance"]}
{"id": "C92", "title": "Nodes of terminations and junctions are placed by their coordinate", "statement": "The network built for a termination or junction has one description item per cable with a node in it; each node is on the conductor given by the position of its line in the cable, with the connector and source of that end; the side of an item is that of its first listed node, and the network's level is that of the last node's cable.", "quantifier": "every termination and junction of every document", "why_tests_cant": "all documents", "anchors": ["python/src/jsonParser.py:Parser._buildTerminations", "python/src/jsonParser.py:Parser._buildJunctions", "python/src/jsonParser.py:Parser._getConnectorAndCableInNode"]}
{"id": "C93", "title": "Some terminations are silently left open", "statement": "A one-node termination whose connector is a multiwire connector (or of a type the parser does not know), and a several-node termination whose connectors are not multiwire connectors, connect nothing: the network is the one with all its nodes open, and no error is raised.", "quantifier": "every termination", "why_tests_cant": "all documents and connector types", "anchors": ["python/src/jsonParser.py:Parser._buildTerminations"]}
{"id": "C94", "title": "Junctions only see resistors", "statement": "A junction of two nodes adds the resistances of the two connectors and joins the nodes by that resistance with the sum of the two sources; when neither connector brings a resistance (whatever capacitors or inductors they have) the nodes are short-circuited and the sources are lost.", "quantifier": "every junction of two nodes", "why_tests_cant": "all connectors and sources", "anchors": ["python/src/jsonParser.py:Parser._buildJunctions"]}
{"id": "C95", "title": "A document gives an ordinary network of lines", "statement": "Whatever document is read, the bundles and networks the parser builds are ones that could have been built by calls of the classes' own methods, so that everything proved of bundles, networks and runs holds of parsed ones.", "quantifier": "every document", "why_tests_cant": "all documents", "anchors": ["python/src/jsonParser.py:Parser.run", "python/src/jsonParser.py:Parser.__init__"]}
{"id": "C96", "title": "The step given to a parser's run is the step of the simulation", "statement": "Parser.run(T,dt) does what building the network of lines from the document's bundles and networks and calling run_until(T,dt) on it does, for dt zero or not, errors included.", "quantifier": "every list of bundles and networks, T, dt", "why_tests_cant": "the override is written twice in the code, for all inputs", "anchors": ["python/src/jsonParser.py:Parser.run", "python/src/mtln.py:MTLN.run_until"]}
{"id": "C97", "title": "Running a parser twice does not repeat the run", "statement": "A run works on the parser's own objects. If nothing shielded is connected, a second run continues from the voltages and currents the first one left with the clock back at zero, and without dt it keeps the dt of the first. If networks have inner levels every run moves their nodes further down by the conductors of the levels above, so after k runs a node reads row + k*offset and a second run may raise IndexError.", "quantifier": "every document read, every T and dt of both runs", "why_tests_cant": "histories of runs of any length over all documents", "anchors": ["python/src/jsonParser.py:Parser.run", "python/src/mtln.py:MTLN.add_network"]}
{"id": "C98", "title": "Runs with an external field", "statement": "Parser.runWithExternalField(T,f,d,dt) is illuminating every bundle with the field and then running; whatever drove the outermost conductors before (distributed sources of the document) has no effect on the result. The localized variant changes only the bundle of the given name and raises KeyError if there is none.", "quantifier": "every list of bundles and networks, field and distances", "why_tests_cant": "all fields and all previous sources", "anchors": ["python/src/jsonParser.py:Parser.runWithExternalField", "python/src/mtln.py:MTLN.add_external_field", "python/src/mtln.py:MTLN.add_localized_external_field"]}
{"id": "C99", "title": "Impedances of the elementary circuits", "statement": "RCpar and RLpar are the impedances of a resistor in parallel with a capacitor or an inductor (impedance times the sum of the admittances is 1; RLpar is 0 at zero frequency), Y_RLseriesDisp with exponent 1 is the admittance of R + jwL, Y_Zw the inverse of Zw. For positive elements the real parts are non-negative and never exceed that of the resistor.", "quantifier": "every frequency and every non-zero R, L, C", "why_tests_cant": "identities over all real frequencies and elements", "anchors": ["python/src/VF/utils.py:RCpar", "python/src/VF/utils.py:RLpar", "python/src/VF/utils.py:Y_RLseriesDisp", "python/src/VF/utils.py:Zw", "python/src/VF/utils.py:Y_Zw"]}
{"id": "C100", "title": "Pole and residue sums", "statement": "vf(f,p,r) is the sum over the poles of the complex numbers that multiplied by (j 2 pi f - p_i) give r_i; with fewer residues than poles it raises IndexError. RCpar, RLpar and the series RL admittance are exactly such sums with one pole (plus the constant R for RLpar).", "quantifier": "every frequency, list of poles and residues", "why_tests_cant": "all lists and frequencies", "anchors": ["python/src/VF/utils.py:vf", "python/src/VF/utils.py:vfi"]}
{"id": "C101", "title": "Debye permittivity", "statement": "epsDebye(f,k,tau) is 1 plus the pole and residue sum with poles -1/tau_i and residues k_i/tau_i; for non-negative k, tau and f its real part lies between 1 and 1 plus the sum of the k, and its imaginary part is not positive. epsDebyeErr multiplies the susceptibility by one factor within p percent of 1. With fewer tau than k both raise IndexError.", "quantifier": "every frequency, k, tau, p and random number in [0,1]", "why_tests_cant": "all lists and all outcomes of the generator", "anchors": ["python/src/VF/utils.py:epsDebye", "python/src/VF/utils.py:epsDebyeErr"]}
{"id": "C102", "title": "Resistance with skin effect", "statement": "z(f,f0,rdc) is rdc(1+jf/f0) below f0 and rdc(1+j)sqrt(f/f0) above; exactly at f0 it is twice the common limit, so it is not continuous there. Its real part is never below rdc.", "quantifier": "every f, f0>0, rdc>=0", "why_tests_cant": "the defect sits on one point of a continuum", "anchors": ["python/src/VF/utils.py:z"]}
{"id": "C103", "title": "Exported fits", "statement": "serializeJSON writes one entry per port with the poles given and the constant, proportional and residue data of the matrix entry number i*nPoles, or raises IndexError and leaves the file empty. These are the diagonal entries of the port matrix only if there is one port or the number of poles is the number of ports plus one; otherwise some fit is exported with the residues of another entry, or not at all.", "quantifier": "every number of ports and poles, every data", "why_tests_cant": "all sizes", "anchors": ["python/src/VF/utils.py:serializeJSON"]}
{"id": "C104", "title": "Energy of networks of lines", "statement": "In every step of a run of a network of lines with symmetric matrices, neither fields nor dispersive elements, in which every end of every conductor is one node of one circuit, the energy in the capacitance and inductance of the lines and in the capacitors of the circuits changes exactly by the work of the sources less the losses in the resistance and conductance of the lines, in the resistors and in the integration of the capacitors. Once the sources are off it never grows if nothing in it supplies energy, and with a step below the Courant limit what is stored stays bounded for ever. Every network of lines assembled from lines and circuits of resistors, capacitors and sources is of this kind.", "quantifier": "every number of lines, conductors, cells, circuits and steps, every wiring, source and step", "why_tests_cant": "stability over any number of steps of any network cannot be settled by runs of some networks", "anchors": ["python/src/mtln.py:MTLN.run_until", "python/src/mtln.py:MTLN.step", "python/src/networks.py:Network", "python/src/mtl.py:MTLD"]}
{"id": "C105", "title": "The lines of a document", "statement": "Each bundle of a parsed document has, level by level, one line per cable with an element at that nesting depth. The line has the inductance and capacitance of the cable's wire in all its cells, the resistances of the wire on the diagonal (a number for all conductors, or one per conductor), no conductance, as many cells as the divisions of the cable, and in the cells with cable ends the resistance of the end divided by the cell's length in the whole row of the first conductor. A cable end on any other conductor of a cable makes reading fail.", "quantifier": "every document with distinct cable names", "why_tests_cant": "all documents, wires, nestings and cable ends", "anchors": ["python/src/jsonParser.py:Parser._buildMTLFromLine", "python/src/jsonParser.py:Parser._buildBundles", "python/src/jsonParser.py:Parser._addConnectorsResistance"]}
{"id": "C106", "title": "Transfer impedances of cable ends", "statement": "A cable end on a shield replaces the coupling between the shield and each conductor directly inside it by the transfer impedance of the end's connector, at the first cell if it is the near end and at the last cell if it is the far end; nothing else in the bundle changes.", "quantifier": "every document, nesting and cable end", "why_tests_cant": "all documents", "anchors": ["python/src/jsonParser.py:Parser._setBundleTransferImpedance", "python/src/mtl.py:MTLD.set_connector_transfer_impedance"]}
{"id": "C107", "title": "Distributed sources of a document", "statement": "Each distributed source is added once, in order, to the bundle of the cable it names, between its two nodes and with its waveform. It drives the row of the bundle with the number it gives as its conductor, whatever cable it names: a source on the first conductor of an inner cable drives the shield.", "quantifier": "every document and list of sources", "why_tests_cant": "all documents", "anchors": ["python/src/jsonParser.py:Parser._addSources", "python/src/mtl.py:MTLD.add_localized_longitudinal_field"]}
{"id": "C108", "title": "Probes of a document", "statement": "Every probe of a document is found under its name: on the bundle of the cable it names (or of the cable through its node), at the position of its node and of its type. If several have the same name the name gives the last.", "quantifier": "every document and list of probes", "why_tests_cant": "all documents", "anchors": ["python/src/jsonParser.py:Parser._addProbes", "python/src/mtl.py:MTLD.add_probe"]}
{"id": "C109", "title": "Sine and double exponential waveforms", "statement": "sin_pulse starts at 0, is odd, bounded by its amplitude, reaches it a quarter of a period after 0 and has the period 2*pi/w: the 'frequency' a document gives is an angular one. double_exp is 0 at 0, positive after and negative before, below its amplitude, and for 0<a<b has its only maximum at ln(b/a)/(b-a).", "quantifier": "every time, amplitude and rate", "why_tests_cant": "all real arguments", "anchors": ["python/src/waveforms.py:sin_pulse", "python/src/waveforms.py:double_exp", "python/src/waveforms.py:double_exp_sp"]}
{"id": "C110", "title": "Travelling waveforms", "statement": "The double exponentials along two axes and the symbolic trapezoidal wave depend on place and time only through the retarded time. The ramps along an axis do not: before the front, following the wave changes the value, and where the wave arrives late the value exceeds the amplitude before the front.", "quantifier": "every place, time, speed and amplitude", "why_tests_cant": "all real arguments", "anchors": ["python/src/waveforms.py:double_exp_xy_sp", "python/src/waveforms.py:trapezoidal_wave_x_sp", "python/src/waveforms.py:ramp_pulse_x_sp"]}
{"id": "C111", "title": "The simulation converges to the telegrapher's equations", "statement": "Take any solution of the telegrapher's equations of a line of one conductor that starts at rest and is driven by a generator behind an impedance at each end. Build the line with any number of cells, attach the two generators, keep the default time step or set a smaller one, and run. There is one constant, the same for all numbers of cells, time steps and runs, such that: for steps below the default one the voltages at the inner nodes and the currents of the cells are as close to the solution as the constant times the cell length (in the mean square); for every step up to the default one this holds for the voltages averaged over a step, and for the terminal voltages averaged over a step and summed over the run. With steps below a fixed part of the default one the voltage of every inner node and the current of every cell tend to the solution as the number of cells grows.", "quantifier": "every solution with bounded second derivatives, line parameters, terminal impedances, generators, numbers of cells, time steps and numbers of steps", "why_tests_cant": "a test compares one resolution with one solution; convergence is a statement about all resolutions", "anchors": ["python/src/mtl.py:MTL.__init__", "python/src/mtl.py:MTL.run_until", "python/src/mtl.py:MTL.add_voltage_source", "python/src/mtl.py:MTL.set_time_step"]}
{"id": "C112", "title": "Reciprocity", "statement": "On a line at rest with symmetric matrices, impedances at all terminals and neither dispersive elements nor external field, a generator and the place where the voltage is read can be exchanged. The same generator, put once behind the impedance of one terminal and once behind that of another (any conductors, same end or opposite ends), gives at each the same voltage the other way round, divided by the impedance there, at every step. In general, for any two sets of terminal generators, the generators of the first divided by their impedances and convolved with the terminal voltages of the second run give the same sum as those of the second with the first.", "quantifier": "every number of conductors, cells and steps, cell lengths, symmetric matrices, losses, impedances and generators", "why_tests_cant": "a test compares two runs of one line; the symmetry must hold for all lines, generators and steps", "anchors": ["python/src/mtl.py:MTL.run_until", "python/src/mtl.py:MTL.add_voltage_source", "python/src/mtl.py:MTL.__init__"]}
{"id": "C113", "title": "Time invariance", "statement": "A line at rest, with or without dispersive connectors, shows no voltage and no current before something drives it: generators and fields that are zero before a time have no effect on the steps that end by then. On a line without dispersive elements, delaying all generators and the external field by a whole number of time steps delays every voltage and every current by the same number of steps and changes nothing else; in particular for one generator added by the user.", "quantifier": "every line at rest, set of generators and fields, delay and number of steps", "why_tests_cant": "a test compares one delay; no absolute time may enter the update anywhere", "anchors": ["python/src/mtl.py:MTL.step", "python/src/mtl.py:MTL.run_until", "python/src/mtl.py:MTL.add_voltage_source"]}
{"id": "C114", "title": "A terminated line settles to direct current", "statement": "Take a line without connectors or external field that can only lose energy, with a resistance in series with every conductor at one end, run with less than the constructor's time step. When its generators stay constant from some time on, all voltages and currents tend to the direct-current solution of the circuit (Ohm's law in the cells, Kirchhoff's at the nodes, the generators behind the impedances of the ends), from whatever state it starts; with generators that go to zero the line rings down to rest. With the constructor's time step this holds for the means of consecutive states. For one conductor without leakage the limit is the voltage divider of the two impedances and the resistance of the wire. A conductor tied without impedance to a constant generator must start at its voltage: otherwise its end alternates about the generator's voltage for ever.", "quantifier": "every number of conductors and cells, set of parameters, initial state and generators that become constant", "why_tests_cant": "a limit at infinite time is not reached by any finite run", "anchors": ["python/src/mtl.py:MTL.run_until", "python/src/mtl.py:MTL.step", "python/src/mtl.py:MTL.add_voltage_source", "python/src/mtl.py:MTL.set_time_step"]}
{"id": "C115", "title": "Modes: linear combinations of conductors", "statement": "If the parameters of one line are those of another for a linear combination of its voltages and one of its currents, and its start, generators and fields are combined likewise, then its run is at every step the same combination of the other's run. For two equal coupled conductors the sum and the difference of voltages and currents are those of two single lines with the self parameters plus or minus the mutual ones; driven equally the conductors stay equal, driven oppositely the pair stays balanced. A line with all impedances (inductances, resistances, terminations, and reciprocals of capacitances and conductances) multiplied by a number has the same voltages and the currents divided by it.", "quantifier": "every pair of lines without dispersive elements so related, any combination matrices, driving functions and number of steps", "why_tests_cant": "a test compares one pair of lines at a few steps; the coupled update must decouple for all parameters and drives", "anchors": ["python/src/mtl.py:MTL.step", "python/src/mtl.py:MTL.run_until", "python/src/mtl.py:MTL.__init__", "python/src/mtl.py:MTL.add_voltage_source"]}
{"id": "C116", "title": "Causality and time invariance of networks of lines", "statement": "MTLN.run_until does not look ahead and does not depend on the origin of time. Two networks of lines that differ only in what their sources and external fields do at and after a time t1 have the same bundle voltages and currents, memories of dispersive elements, node voltages and currents and state variables after every step that ends at or before t1; in particular a network with everything zero stays so until its first source or field acts. And delaying all sources and fields of a network at rest by k time steps delays its whole response by k steps: after k+n steps it is in the state the undelayed network is in after n, whatever final times the two runs are given.", "quantifier": "every network of lines built through the API, at any point of its life, every number of bundles, conductors and circuits, every source and field function, every time step and number of steps; delay: every whole number of steps, bundles without dispersive elements", "why_tests_cant": "a test tries a few sources and delays; the claim is about every function of time, every topology and every number of steps", "anchors": ["python/src/mtln.py:MTLN.run_until", "python/src/mtln.py:MTLN.step", "python/src/networks.py:Network.advance_voltage", "python/src/networks.py:Network.update_sources", "python/src/mtl.py:MTLD.advance_voltage", "python/src/mtl.py:MTLD.advance_current"]}
{"id": "C117", "title": "A stretch of a line cannot know at once what lies outside it", "statement": "If a stretch of one bundle and a stretch of another (possibly in another network of lines, of another length, at another place along the bundle) are the same cable and hold the same voltages, currents and memories, then after n steps the two stretches less n cells at either side still hold the same, whatever circuits terminate the bundles, whatever other lines and circuits the two networks contain, and whatever the bundles are like elsewhere. In particular the voltages at nodes at least n cells from both ends of a bundle do not depend, for n steps, on what is connected to it.", "quantifier": "every arithmetic, linear solver, pair of networks of lines a program can hold, pair of bundles, stretch, displacement, step and number of steps", "why_tests_cant": "two particular terminations or lengths can be compared, not all of them", "anchors": ["python/src/mtln.py:MTLN.run_until", "python/src/mtln.py:MTLN.advance_voltage", "python/src/mtln.py:MTLN.advance_current", "python/src/networks.py:NetworkD.advance_voltage"]}
{"id": "C118", "title": "The front of a wave, and time steps above the constructor's", "statement": "When a single-conductor line at rest is driven at its near end, after j+1 steps of run_until the wave has reached node j and no further, and the value there is the first voltage of the near end divided by one positive factor per cell crossed. On a uniform lossless line the factor is the square of (time to cross a cell)/dt, so the front is kept exactly by the constructor's step, smeared by a smaller one and multiplied by (dt/dt0)^2 per cell by a larger one: set_time_step with a step above the constructor's makes the simulation exceed every bound, on a long enough line, without any error being raised.", "quantifier": "every single-conductor line without dispersive elements or external fields and its history, every source at the near end, step, number of steps and cell; for the divergence every bound", "why_tests_cant": "a test sees one ratio of steps and one length; growth needs enough cells to be visible", "anchors": ["python/src/mtl.py:MTL.set_time_step", "python/src/mtl.py:MTL.run_until", "python/src/mtl.py:MTL.advance_voltage", "python/src/mtl.py:MTL.advance_current"]}
{"id": "C119", "title": "A run of a network of lines can be split in two", "statement": "Calling run_until(T1, dt) on a network of lines and then run_until(T2), with the time step kept or given again, leaves every bundle (voltages, currents, dispersive memory), every terminal network and the clock exactly as the single call run_until(T, dt) whose number of steps is the sum does, and that single call succeeds whenever the two calls do. Only the probes differ: they hold the frames of the second run.", "quantifier": "all networks of lines (any bundles, dispersive or not, any terminal networks), all durations and time steps, all probes, every arithmetic including floating point; for real numbers all whole numbers of steps", "why_tests_cant": "A test splits one run of one network at one time; the statement is about every splitting of every run.", "anchors": ["python/src/mtln.py:MTLN.run_until", "python/src/mtln.py:MTLN.step", "python/src/networks.py:Network.compute_v_terms", "python/src/networks.py:Network.advance_voltage", "python/src/mtl.py:MTLD.update_lr_terms", "python/src/mtl.py:MTLD.update_cg_terms", "python/src/probes.py:Probe.resize_frames"]}
{"id": "C120", "title": "The equation of a terminal is the balance of the components connected to it", "statement": "In a terminal network whose nodes are given at most one component to ground each (a resistor, a capacitor or a resistor with a parallel inductor and capacitor, with or without a source in series, or a short circuit) and then any resistors and short circuits between nodes, the current the network sends into a node is the sum of the currents of exactly the components connected to it: (s - v)/R for a resistor with source s, C d(s - v)/dt for a capacitor, (s + x - v)/R through the resistor of an RLC termination with inner voltage x, and (v' - v)/R from a neighbouring node. Each step balances that current with the charge of the line ends and the currents of the lines.", "quantifier": "all descriptions of terminal networks, any number of nodes, lines and components, all values and sources, every node, every step of every run", "why_tests_cant": "A test compares one waveform of one termination; the statement fixes the contribution of every kind of component, with its sign and its source, in every circuit.", "anchors": ["python/src/networks.py:Network.connect_to_ground", "python/src/networks.py:Network.connect_to_ground_C", "python/src/networks.py:Network.connect_to_ground_LCpRs", "python/src/networks.py:Network.short_to_ground", "python/src/networks.py:Network.connect_nodes", "python/src/networks.py:Network.short_nodes", "python/src/networks.py:Network.advance_voltage"]}
{"id": "C121", "title": "The charge of a network of lines changes only by what the terminals send in and what the conductances leak", "statement": "In every step of a run of a network of lines whose line ends all belong to terminal networks, without external field or dispersive elements, the charge of all conductors (capacitance times voltage, half of each adjacent cell belonging to a node) changes by exactly dt times the mean current the terminal networks send into their nodes at the beginning and end of the step, less dt times the current that leaks through the conductance of the interior nodes at the mean voltage. What a terminal network sends in is the sum of the currents of its components to ground: resistors and short circuits between nodes only move charge, so a terminal network without components to ground keeps the charge.", "quantifier": "all networks of lines, any number of lines, conductors, cells and terminals, every step of every run of any length", "why_tests_cant": "No charge can appear or vanish at a junction, an end cell or a node between two cells of different length: a test sees a few waveforms of a few circuits; a small wrong share of an end cell is within its tolerance.", "anchors": ["python/src/mtln.py:MTLN.run_until", "python/src/mtln.py:MTLN.step", "python/src/mtl.py:MTLD.advance_voltage", "python/src/networks.py:Network.advance_voltage", "python/src/networks.py:Network.update_currents", "python/src/networks.py:Network.connect_nodes"]}
{"id": "C122", "title": "Over any stretch of a conductor flux is accumulated voltage and charge is accumulated current", "statement": "In a run of any network of lines, for any conductor of any bundle without dispersive elements and any consecutive cells, the magnetic flux linked with the conductor after n steps is what it was plus dt times the sum over the steps of the voltage between the two end nodes of the stretch (with the transverse field added), plus that of the longitudinal field, less the resistive voltage at the mean of the old and new currents. For any consecutive interior nodes (dispersive elements allowed) the charge of the conductor is what it was plus dt times the sum of the current through the cell before the stretch less that through the cell after it less what the conductances leaked.", "quantifier": "all networks of lines, bundles, conductors, stretches, and runs of any length, with or without external fields", "why_tests_cant": "A test looks at end waveforms; an unbalanced cell, a field counted in one equation and not in the other, or a wrong neighbour index anywhere along the line would break the balance of some stretch in some run.", "anchors": ["python/src/mtl.py:MTLD.advance_voltage", "python/src/mtl.py:MTLD.advance_current", "python/src/mtln.py:MTLN.step", "python/src/mtln.py:MTLN.run_until"]}
