{"id": "C01", "title": "link() chains mean what they say", "statement": "For any chain given to Network.link - an optional external port number, then any number of 'in:name:out' pieces (the first may be 'name:out', the last 'in:name'), then an optional external port number - the connections declared are exactly: each piece's out-port to the next piece's in-port, in order, then the leading external number to the first piece's in-port, then the trailing one to the last piece's out-port. Nothing else is declared, and reading the declared connections back yields the same component names and port numbers.", "quantifier": "all chains of any length, all component names without ':' / surrounding blanks / that are not integers, all port numbers", "why_tests_cant": "the number of pieces, the names and the port numbers are unbounded; the string encoding/decoding must be lossless for all of them", "anchors": ["photontorch/networks/network.py: Network.link", "photontorch/networks/network.py: Network._set_buffers", "photontorch/networks/network.py: Network.set_C.parse_connection", "photontorch/networks/network.py: Network.set_port_order.parse_output_connection"]}
{"id": "C02", "title": "The connection matrix is exactly the declared wiring", "statement": "After a network is built successfully, two of its ports are connected in C iff they were already connected inside the same sub-component or some declared connection names exactly these two ports (in either order). C is symmetric whenever the sub-components' are, and contains nothing else.", "quantifier": "all networks that build successfully, any number of components, ports, nesting levels and connections", "why_tests_cant": "quantifies over all circuit topologies", "anchors": ["photontorch/networks/network.py: Network.set_C", "photontorch/components/component.py: Component._set_buffers"]}
{"id": "C03", "title": "Building a parent never rewires the inside of a child", "statement": "When a network is used as a component of another network, the wiring between the child's ports inside the parent is the child's own wiring plus the parent's connections, and the parent's connections can only attach to ports the child left free. A port that is already connected inside the child is never reachable from the parent.", "quantifier": "all successfully built nested networks", "why_tests_cant": "hierarchies of arbitrary depth and port count", "anchors": ["photontorch/networks/network.py: Network.set_C", "photontorch/networks/network.py: Network.set_port_order"]}
{"id": "C04", "title": "Every port has at most one partner", "statement": "If no port is named twice by the declared connections, then in the built network every port is connected to at most one other port, and the number of free ports is the sum of the components' free ports minus two per connection. (Full claim a user expects: a port that is already used is refused; the code accepts it silently.)", "quantifier": "all networks and all connection lists", "why_tests_cant": "all topologies; the counter-example side shows the missing check", "anchors": ["photontorch/networks/network.py: Network.set_C", "photontorch/components/component.py: Component._set_buffers"]}
{"id": "C05", "title": "External port numbers are honoured by the parent", "statement": "If a network declares external ports 0..k-1, each exactly once, on k different free ports, then connecting to port j<k of that network in a parent reaches exactly the port declared as j, and ports k, k+1, ... are the remaining free ports in their natural order. (False for nested networks whose child numbers its ports in a non-natural order: the child's order is applied twice.)", "quantifier": "all networks, all k, all declaration orders", "why_tests_cant": "index arithmetic through arbitrarily many components", "anchors": ["photontorch/networks/network.py: Network.set_port_order", "photontorch/networks/network.py: Network.set_C"]}
{"id": "C06", "title": "No port is lost or duplicated by port numbering", "statement": "For every history of link() calls that is accepted, the port order of the network is a permutation of its ports, so every free port stays reachable from a parent exactly once. (True when the external numbers in use are 0..k-1; false when they have gaps.)", "quantifier": "all accepted sequences of link declarations", "why_tests_cant": "unbounded histories of declarations", "anchors": ["photontorch/networks/network.py: Network.set_port_order"]}
{"id": "C07", "title": "Invalid port orders are rejected", "statement": "A component whose port order is not a permutation of 0..num_ports-1 is rejected when it is created; one whose port order is a permutation is accepted. (The code rejects only orders that, once sorted, differ at every position.)", "quantifier": "all components with any number of ports and any port order", "why_tests_cant": "all sequences of integers", "anchors": ["photontorch/components/component.py: Component._set_buffers"]}
{"id": "C08", "title": "A port cannot be connected to itself", "statement": "No accepted connection connects a component port to that very same port. (True for non-negative port indices; a negative index defeats the check.)", "quantifier": "all connection strings", "why_tests_cant": "all port index spellings", "anchors": ["photontorch/networks/network.py: Network.set_C.parse_connection"]}
{"id": "C09", "title": "A failed link() leaves the network usable", "statement": "If link() raises, the network is the same as before the call, so later correct link() calls behave as if the failed one never happened.", "quantifier": "all networks, all failing calls", "why_tests_cant": "all error points inside the call", "anchors": ["photontorch/networks/network.py: Network.link", "photontorch/networks/network.py: Network._set_buffers"]}
{"id": "C10", "title": "A component name identifies one component", "statement": "Adding a second component under a name that is already in use is refused; the first component stays.", "quantifier": "all histories of component additions and links", "why_tests_cant": "all interleavings of add and link", "anchors": ["photontorch/networks/network.py: Network.add_component", "photontorch/networks/network.py: Network.__setattr__", "photontorch/networks/network.py: Network._set_buffers"]}
{"id": "C11", "title": "terminate() closes exactly the open ports, in order", "statement": "Terminating a network with one distinctly named one-port term per free port yields a network with no free port in which term i is connected to the network's i-th free port in port order, the wiring inside is unchanged, and the number of sources/detectors is the network's plus the ones added.", "quantifier": "all networks with at least one free port, all term lists of matching length", "why_tests_cant": "all sizes and hierarchies", "anchors": ["photontorch/networks/network.py: Network.terminate", "photontorch/networks/network.py: Network.unterminate"]}
{"id": "C12", "title": "terminate() argument errors", "statement": "Terminating a network with no free ports raises IndexError; giving more terms than free ports raises ValueError; giving fewer leaves exactly the remaining ports free.", "quantifier": "all networks, all term lists", "why_tests_cant": "all sizes", "anchors": ["photontorch/networks/network.py: Network.terminate", "photontorch/networks/network.py: Network.set_C.parse_connection"]}
{"id": "C13", "title": "Leaving a network with-block restores the current network", "statement": "After a 'with network:' block ends - normally or by an exception - the network being defined is the one from before the block.", "quantifier": "all nestings of with-blocks and all points where an exception can be raised", "why_tests_cant": "arbitrary interleavings and crash points", "anchors": ["photontorch/networks/network.py: Network.__enter__", "photontorch/networks/network.py: Network.__exit__", "photontorch/networks/network.py: current_network", "photontorch/components/component.py: Component.__init__"]}
{"id": "C14", "title": "Leaving an environment with-block restores the current environment and gradient mode", "statement": "For every properly nested program of environment with-blocks, including blocks left by an exception, current_environment() and the gradient mode after a block are what they were before it; with no environment active current_environment() raises RuntimeError. set_environment() inside a block breaks this.", "quantifier": "all nestings, all exception points", "why_tests_cant": "arbitrary histories", "anchors": ["photontorch/environment/environment.py: Environment.__enter__", "photontorch/environment/environment.py: Environment.__exit__", "photontorch/environment/environment.py: current_environment", "photontorch/environment/environment.py: set_environment"]}
{"id": "C15", "title": "Sources and detectors keep their order", "statement": "In the simulated network the memory nodes are a reordering of all source, detector, active and delayed ports without loss or repetition: the k-th source channel drives the k-th source port, and the k-th detector output reads the k-th detector port, in the port order of the network.", "quantifier": "all initialised networks", "why_tests_cant": "all port counts and flag patterns", "anchors": ["photontorch/networks/network.py: Network.initialize", "photontorch/networks/network.py: Network.step"]}
{"id": "C16", "title": "The simulator solves the circuit's wave equations", "statement": "For every terminated passive network and every source signal, the fields computed step by step are part of a solution of the full circuit equations (at every port of every component: outgoing wave = scattering matrix applied to the delayed incoming waves + source; incoming wave = outgoing wave of the connected port), including all memory-less ports that the simulator eliminates; and when the memory-less subcircuit is non-singular it is the only solution.", "quantifier": "all networks with any numbers of memory-less and memory-containing ports, all sources, all time steps", "why_tests_cant": "for all matrices, sizes and unbounded time", "anchors": ["photontorch/networks/network.py: Network.initialize", "photontorch/networks/network.py: Network.step", "photontorch/networks/network.py: Network.forward"]}
{"id": "C17", "title": "A port delayed by d steps really delays by d steps", "statement": "At every time step the value a memory port emits is determined by its input exactly d steps earlier (one step for ports with zero delay), and by zero before the simulation started: the rolling buffer never loses, repeats or shifts a value.", "quantifier": "all delays, all buffer lengths, all numbers of steps", "why_tests_cant": "unbounded time and delay", "anchors": ["photontorch/networks/network.py: Network.step", "photontorch/networks/network.py: Network._simulation_buffer", "photontorch/networks/network.py: Network.initialize"]}
{"id": "C18", "title": "Passive simulation is linear in the source", "statement": "For networks without active components the detected complex field of a complex-linear combination of sources is the same combination of the detected fields; a zero source gives zero output.", "quantifier": "all networks, sources, complex coefficients, time steps", "why_tests_cant": "universal over signals and circuits", "anchors": ["photontorch/networks/network.py: Network.forward", "photontorch/networks/network.py: Network.step"]}
{"id": "C19", "title": "Simulation is causal", "statement": "What is detected at step n depends only on the source values at steps 0..n; it does not depend on later source values or on the length of the simulation.", "quantifier": "all networks (also active ones), all pairs of sources agreeing up to step n", "why_tests_cant": "universal over signals", "anchors": ["photontorch/networks/network.py: Network.forward", "photontorch/networks/network.py: Network.step"]}
{"id": "C20", "title": "Simulation is time-invariant", "statement": "For networks without active components, delaying the source by k steps delays every detector output by k steps.", "quantifier": "all networks, sources, k", "why_tests_cant": "universal over signals and shifts", "anchors": ["photontorch/networks/network.py: Network.forward", "photontorch/networks/network.py: Network.step"]}
{"id": "C21", "title": "Batches do not influence each other", "statement": "Each batch column of the result equals the result of simulating that column alone.", "quantifier": "all networks, batch sizes and sources", "why_tests_cant": "universal", "anchors": ["photontorch/networks/network.py: Network.forward", "photontorch/networks/network.py: Network.step"]}
{"id": "C22", "title": "Wavelengths do not influence each other", "statement": "For passive networks each wavelength of the result equals the result of simulating that wavelength alone.", "quantifier": "all networks, numbers of wavelengths and sources", "why_tests_cant": "universal", "anchors": ["photontorch/networks/network.py: Network.initialize", "photontorch/networks/network.py: Network.step"]}
{"id": "C23", "title": "Detected power is the squared field and ignores the global phase", "statement": "forward(power=True) is the squared modulus of forward(power=False), is non-negative, and does not change when the source is multiplied by a unit-modulus complex number (no active components).", "quantifier": "all networks, sources and phases", "why_tests_cant": "universal", "anchors": ["photontorch/networks/network.py: Network.forward"]}
{"id": "C24", "title": "Frequency-domain response = steady state of the time-domain simulation", "statement": "If a time-domain simulation with a constant source reaches a state that repeats, the detected fields equal the frequency-domain response of the same network at the same wavelengths.", "quantifier": "all networks, delays and sources", "why_tests_cant": "universal over circuits, infinite time behaviour", "anchors": ["photontorch/networks/network.py: Network.initialize", "photontorch/networks/network.py: Network.step"]}
{"id": "C25", "title": "Lossless circuits conserve energy in the frequency domain", "statement": "If every component's scattering matrix is lossless and every port has exactly one partner, the total power arriving at all terminations equals the total injected power.", "quantifier": "all lossless networks and sources", "why_tests_cant": "universal over matrices and topologies", "anchors": ["photontorch/networks/network.py: Network.initialize", "photontorch/networks/network.py: Network.forward"]}
{"id": "C26", "title": "Passive circuits never emit more energy than was injected", "statement": "In any time-domain simulation of a network of passive components the energy detected up to any time step is at most the energy injected up to that step.", "quantifier": "all passive networks, all delays, all sources, all times", "why_tests_cant": "universal over circuits and unbounded time", "anchors": ["photontorch/networks/network.py: Network.initialize", "photontorch/networks/network.py: Network.step", "photontorch/networks/network.py: Network.forward"]}
{"id": "C27", "title": "Reciprocity", "statement": "If all components have symmetric scattering matrices, the field transmitted from termination A to termination B equals that from B to A.", "quantifier": "all reciprocal networks", "why_tests_cant": "universal over circuits", "anchors": ["photontorch/networks/network.py: Network.initialize"]}
{"id": "C28", "title": "Delay quantisation and buffer length", "statement": "The number of steps used for a physical delay is the nearest integer (error at most half a time step), it is monotone in the delay, zero in a frequency-domain environment, and the history buffer allocated for the run always has exactly the length the read-out mask needs.", "quantifier": "all delays, time steps and networks", "why_tests_cant": "universal over reals", "anchors": ["photontorch/networks/network.py: Network.initialize", "photontorch/networks/network.py: Network._simulation_buffer"]}
{"id": "C29", "title": "All light in a component is simulated", "statement": "The split into delayed and instantaneous ports drops no scattering term. (True when no component mixes delayed and instantaneous ports, which holds for every built-in component; false for a custom component that does.)", "quantifier": "all components and networks", "why_tests_cant": "universal over scattering matrices", "anchors": ["photontorch/networks/network.py: Network.initialize"]}
{"id": "C30", "title": "A network can be simulated whatever its number of detectors or steps", "statement": "forward() returns one output per detector for any number of detectors including zero, and for any time grid including a single step. (False for zero detectors and for a single time-domain step.)", "quantifier": "all networks and environments", "why_tests_cant": "boundary cases over all sizes", "anchors": ["photontorch/networks/network.py: Network.step", "photontorch/networks/network.py: Network._simulation_buffer"]}
{"id": "C31", "title": "forward() uses the current parameters", "statement": "The result of forward() reflects the parameter values and the environment at the time of the call. (True with gradients enabled, or if nothing changed since the environment was entered; false otherwise.)", "quantifier": "all histories of environment switches, parameter updates and simulations", "why_tests_cant": "unbounded histories", "anchors": ["photontorch/networks/network.py: Network.forward", "photontorch/networks/network.py: Network.initialize"]}
{"id": "C32", "title": "Source broadcasting", "statement": "Every accepted source is expanded so that the value at (time, wavelength, source, batch) is the given value with dimensions of size one repeated, missing imaginary parts are zero, and memory nodes that are not sources receive zero; a source with a wrong number of wavelengths or source ports is refused.", "quantifier": "all source shapes and values", "why_tests_cant": "all shapes", "anchors": ["photontorch/networks/network.py: Network._handle_source"]}
{"id": "C33", "title": "Named source dimensions can be given in any order", "statement": "Two sources holding the same named values in a different order of dimensions give the same expanded source.", "quantifier": "all subsets and orders of dimension names, all values", "why_tests_cant": "all permutations and shapes", "anchors": ["photontorch/networks/network.py: Network._handle_source"]}
{"id": "C34", "title": "Sources shorter or longer than the simulation", "statement": "A source longer than the simulation is cut to its length; a shorter one is completed with zeros. (The second half is false except for length two.)", "quantifier": "all lengths", "why_tests_cant": "all lengths", "anchors": ["photontorch/networks/network.py: Network._handle_source"]}
{"id": "C35", "title": "Built-in passive components are lossless or passive", "statement": "For all parameter values in range, at every wavelength: connection, mirror, directional coupler, realistic directional coupler and MZI conserve power; waveguide and directional coupler with length conserve power up to exactly their loss 10^(-loss*length/10); terms absorb everything; the grating coupler without reflections never amplifies for Tmax<=1; an MMI is passive exactly when its weights are contractive both ways.", "quantifier": "all parameters, wavelengths and incoming waves", "why_tests_cant": "real-valued parameter spaces", "anchors": ["photontorch/components/mirrors.py", "photontorch/components/directionalcouplers.py", "photontorch/components/mzis.py", "photontorch/components/waveguides.py", "photontorch/components/connection.py", "photontorch/components/terms.py", "photontorch/components/gratingcouplers.py", "photontorch/components/mmis.py"]}
{"id": "C36", "title": "Built-in passive components are reciprocal", "statement": "All built-in passive components have symmetric scattering matrices. LinearSoa does not: it transmits in one direction only.", "quantifier": "all parameters and wavelengths", "why_tests_cant": "real-valued parameter spaces", "anchors": ["photontorch/components/*.py: set_S"]}
{"id": "C37", "title": "Loss and phase parameters take effect", "statement": "Changing the loss of a component attenuates its transmission and its length changes the phase. (False: the MZI ignores its loss; the directional coupler with length ignores length, neff and wavelength in its phase.)", "quantifier": "all parameter values", "why_tests_cant": "universal over reals", "anchors": ["photontorch/components/mzis.py: Mzi.set_S", "photontorch/components/directionalcouplers.py: DirectionalCouplerWithLength.set_S"]}
{"id": "C38", "title": "Waveguides compose", "statement": "Two waveguides with the same neff, ng, wl0 and loss/m in series transmit exactly like one waveguide of the summed length and phase, and their delays add up.", "quantifier": "all lengths, losses, phases and wavelengths", "why_tests_cant": "real-valued parameters; modulo 2 pi reasoning", "anchors": ["photontorch/components/waveguides.py: Waveguide.set_S", "photontorch/components/waveguides.py: Waveguide.set_delays"]}
{"id": "C39", "title": "Grating coupler spectrum", "statement": "A grating coupler transmits power Tmax at its centre wavelength, exactly half of it at half a bandwidth from the centre on either side, and less the further away.", "quantifier": "all parameters and wavelengths", "why_tests_cant": "real-valued parameters", "anchors": ["photontorch/components/gratingcouplers.py: GratingCoupler.set_S"]}
{"id": "C40", "title": "Bounded parameters stay in bounds and round-trip", "statement": "A BoundedParameter created with data inside its closed bounds reads back as that data, and reads back a value within the bounds after any sequence of updates of the underlying weight; creation with reversed bounds or out-of-range data is refused.", "quantifier": "all bounds, data and update sequences", "why_tests_cant": "unbounded training histories, real data, boundary values", "anchors": ["photontorch/nn/nn.py: BoundedParameter", "photontorch/nn/nn.py: Module.__setattr__"]}
{"id": "C41", "title": "Training cannot make a coupler or mirror gain energy", "statement": "After any sequence of weight updates a trainable directional coupler, mirror or coupler with length still conserves power (up to its loss).", "quantifier": "all training histories", "why_tests_cant": "unbounded histories", "anchors": ["photontorch/components/directionalcouplers.py", "photontorch/components/mirrors.py", "photontorch/nn/nn.py: BoundedParameter"]}
{"id": "C42", "title": "Active components act on their own ports", "statement": "In a network whose active components are plain components, each active component's action sees exactly its own ports' fields and its results are written to exactly those ports; sources, delayed and detector nodes are untouched. (False for two active sub-networks that also contain passive ports.)", "quantifier": "all component lists", "why_tests_cant": "all orders and port counts", "anchors": ["photontorch/networks/network.py: Network.action", "photontorch/networks/network.py: Network.initialize"]}
{"id": "C43", "title": "SOA gain after start-up", "statement": "The logarithmic gain of a Soa never decreases, and after the start-up time it is the number of started steps times dt/startup_time times log(amplification), hence within one step of log(amplification) from above; from then on it is constant and the field is amplified by exp(h/2).", "quantifier": "all time steps, start-up times, amplifications, inputs", "why_tests_cant": "unbounded time", "anchors": ["photontorch/components/soas.py: BaseSoa.action", "photontorch/components/soas.py: Soa.dhdt"]}
{"id": "C44", "title": "Active components treat all phases of light alike", "statement": "Multiplying the input of an SOA by a unit-modulus number multiplies its output by the same number. (True for Soa, false for AgrawalSoa.)", "quantifier": "all inputs and phases", "why_tests_cant": "real-valued inputs", "anchors": ["photontorch/components/soas.py: BaseSoa.action", "photontorch/components/soas.py: AgrawalSoa.dhdt"]}
{"id": "C45", "title": "Environment argument conflicts are refused", "statement": "Creating an environment raises ValueError exactly when mutually exclusive arguments are combined or dt<0 or t0>t1; otherwise the resulting arrays are determined by the given arguments.", "quantifier": "all combinations of given and defaulted arguments", "why_tests_cant": "2^20 argument combinations times all values", "anchors": ["photontorch/environment/environment.py: Environment.__init__"]}
{"id": "C46", "title": "Time grid", "statement": "With num_t=n given there are exactly n equidistant points t0 + i*dt; with t1 given the points start at t0, are spaced by dt, stay below t1 and leave less than one step uncovered; samplerate=s means dt=1/s; the reported t0, t1, dt, num_t, samplerate describe the grid.", "quantifier": "all values", "why_tests_cant": "real-valued parameters", "anchors": ["photontorch/environment/environment.py: Environment.__init__", "photontorch/environment/environment.py: _arange"]}
{"id": "C47", "title": "Wavelength grid", "statement": "With num_wl=k given there are exactly k equidistant wavelengths from wl0 towards wl1 (in either direction), and frequencies and wavelengths correspond by f=c/wl. (The count is right in exact arithmetic; in the binary64 arithmetic of the code num_wl=51 with default bounds yields 50.)", "quantifier": "all k and bounds", "why_tests_cant": "all values, rounding", "anchors": ["photontorch/environment/environment.py: Environment.__init__", "photontorch/environment/environment.py: _arange"]}
{"id": "C48", "title": "Frequency grids given by wavelength bounds", "statement": "num_f or df combined with a wavelength bound wl1 produces the frequency range ending there. (False: any use of wl1 with num_f fails.)", "quantifier": "all values", "why_tests_cant": "universal", "anchors": ["photontorch/environment/environment.py: Environment.__init__"]}
{"id": "C49", "title": "Environment copy", "statement": "env.copy() succeeds and has the same attributes; env.copy(x=v) changes only what depends on x; the original is unchanged. (False for single-step environments starting after 1 ps.)", "quantifier": "all environments and overrides", "why_tests_cant": "all attribute combinations", "anchors": ["photontorch/environment/environment.py: Environment.copy", "photontorch/environment/environment.py: _convert_default"]}
{"id": "C50", "title": "Environments are immutable", "statement": "After creation, every attempt to set an attribute raises AttributeError and changes nothing, in any sequence of attempts.", "quantifier": "all sequences of attempts", "why_tests_cant": "unbounded histories", "anchors": ["photontorch/environment/environment.py: Environment.__setattr__"]}
{"id": "C51", "title": "Equal environments simulate alike", "statement": "Two environments comparing equal have the same time and wavelength grids. (False for non-uniform grids.)", "quantifier": "all environments", "why_tests_cant": "all arrays", "anchors": ["photontorch/environment/environment.py: Environment.__eq__"]}
{"id": "C52", "title": "Frequency-domain environments have one step", "statement": "A frequency-domain environment has exactly one time step and no bitrate, whatever the time arguments.", "quantifier": "all argument combinations", "why_tests_cant": "all combinations", "anchors": ["photontorch/environment/environment.py: Environment.__init__"]}
{"id": "C53", "title": "Bit streams hold each bit for its bit time", "statement": "Without filtering, sample k of a generated stream is bit number floor(k*bitrate/samplerate), and the stream has ceil(n*samplerate/bitrate) samples for n bits, for all (also non-integer-ratio) rates.", "quantifier": "all bit sequences, integer rates", "why_tests_cant": "all rate ratios and lengths", "anchors": ["photontorch/nn/nn.py: BitStreamGenerator.forward"]}
{"id": "C54", "title": "Bit error rate counts differing bits", "statement": "For two streams generated from bit sequences of the same length (target not constant) with samplerate at least twice the bitrate, BERLoss returns the fraction of differing bits; it is between 0 and 1 and 0 for identical streams. (For rates below that the sampled bit can be the wrong one.)", "quantifier": "all bit sequences and rates", "why_tests_cant": "all rate ratios and lengths", "anchors": ["photontorch/nn/nn.py: BERLoss.forward", "photontorch/nn/nn.py: BitStreamGenerator.forward"]}
{"id": "C55", "title": "MSE alignment", "statement": "MSELoss compares prediction sample i+latency with target sample i for all i after the warm-up: it is zero iff these agree, non-negative, and zero for a prediction that is the target delayed by the latency.", "quantifier": "all sequences, latencies and warm-ups", "why_tests_cant": "all lengths and shifts", "anchors": ["photontorch/nn/nn.py: MSELoss.forward"]}
{"id": "C56", "title": "Latency rounding", "statement": "A latency is converted to the nearest whole number of samples. (True for latencies >= 0; false for negative ones, which are allowed.)", "quantifier": "all latencies and rates", "why_tests_cant": "real values", "anchors": ["photontorch/nn/nn.py: MSELoss.forward", "photontorch/nn/nn.py: BERLoss.forward"]}
{"id": "C57", "title": "lfilter solves the difference equation", "statement": "lfilter(b,a,x) is the signal y with a0*y[n] = sum b_k x[n-k] - sum a_k y[n-k]. (True for symmetric numerators such as the Butterworth low-pass used here; for others the numerator is applied reversed; signals shorter than the filter raise IndexError.)", "quantifier": "all filters, signals and lengths", "why_tests_cant": "unbounded lengths", "anchors": ["photontorch/detectors/lowpassdetector.py: lfilter"]}
{"id": "C58", "title": "lfilter is linear, causal and time-invariant", "statement": "Filtering commutes with linear combinations and delays of the signal and the output up to n depends on the input up to n.", "quantifier": "all filters and signals", "why_tests_cant": "universal over signals", "anchors": ["photontorch/detectors/lowpassdetector.py: lfilter"]}
{"id": "C59", "title": "Detectors keep the time axis", "statement": "Passing a power signal through a detector returns one value per time step. (False for signals with exactly two time steps, which are taken for complex ones.)", "quantifier": "all signals", "why_tests_cant": "all shapes", "anchors": ["photontorch/detectors/lowpassdetector.py: LowpassDetector.forward", "photontorch/detectors/photodetector.py: Photodetector.forward"]}
{"id": "C60", "title": "Clements network structure", "statement": "For every N>=2 and capacity>=2 ClementsNxN(N, capacity) builds, has exactly 2N free ports with input i at port i and output i at port N+i, and terminate() yields a closed network with N sources and N detectors in which every port has exactly one partner.", "quantifier": "all N and capacities", "why_tests_cant": "unbounded sizes", "anchors": ["photontorch/networks/clements.py"]}
{"id": "C61", "title": "Reck network structure", "statement": "For every N>=2 ReckNxN(N) builds, has exactly 2N free ports, inputs first, and terminate() yields a closed network with N sources and N detectors in which every port has exactly one partner.", "quantifier": "all N", "why_tests_cant": "unbounded sizes", "anchors": ["photontorch/networks/reck.py"]}
{"id": "C62", "title": "Ring network structure", "statement": "For every even N>=2 and capacity>=2 RingNetwork(N, capacity) builds, has exactly 2N free ports, and terminate() yields a closed network in which every port has exactly one partner; odd N is refused.", "quantifier": "all N and capacities", "why_tests_cant": "unbounded sizes", "anchors": ["photontorch/networks/rings.py"]}
{"id": "C63", "title": "Mesh networks realise unitary matrices", "statement": "For every N the frequency-domain transfer matrix from the N sources to the N detectors of the Clements and Reck networks (with default components) is unitary, for all phases and wavelengths.", "quantifier": "all N, phases, wavelengths", "why_tests_cant": "tests check N=4 with random phases", "anchors": ["photontorch/networks/clements.py", "photontorch/networks/reck.py"]}
{"id": "C64", "title": "Meshes with a single layer", "statement": "ClementsNxN and RingNetwork work for every capacity>=1. (False for capacity 1: the network comes out empty.)", "quantifier": "all N, capacities", "why_tests_cant": "boundary case over all N", "anchors": ["photontorch/networks/clements.py", "photontorch/networks/network.py: Network._set_buffers"]}
{"id": "C65", "title": "plot labels", "statement": "For every accepted shape of detected values plot() draws one labelled curve per (wavelength, detector, batch) combination: the number of labels equals the number of curves.", "quantifier": "all shapes", "why_tests_cant": "all shapes", "anchors": ["photontorch/networks/visualize.py: plot"]}
{"id": "C66", "title": "Incremental linking equals building at once", "statement": "Calling link() several times, all accepted, gives the same network as building it from all the declared connections in one go.", "quantifier": "all networks, all sequences of accepted link() calls", "why_tests_cant": "sequences are unbounded and each link re-reads all earlier connection strings", "anchors": ["photontorch/networks/network.py: Network.link, Network._set_buffers"]}
{"id": "C67", "title": "A circuit obeys the equations of its parts", "statement": "In a network built from components and connections, every solution of the network's wave equations satisfies, part by part, the scattering equations of each component with its own delays; for every connection the wave entering one end is the wave leaving the other; and no wave enters an unconnected port.", "quantifier": "all component lists, connection lists, signals and times", "why_tests_cant": "Relates the textual connections to the solved equations for every circuit; tests compare a few circuits with reference numbers.", "anchors": ["photontorch/networks/network.py:854", "photontorch/networks/network.py:889"]}
{"id": "C68", "title": "Circuits of built-in components neither gain nor lose energy on their own", "statement": "In any closed circuit, however nested, made of built-in passive components and terminations, the detectors together never receive more energy than the sources sent, at any time; if none of the components has losses, all energy is at any time either absorbed by a termination or still under way; and any circuit of built-in passive components is reciprocal.", "quantifier": "all circuits, parameters in range, environments, signals and times", "why_tests_cant": "quantifies over all circuits and all nesting depths", "anchors": ["photontorch/networks/network.py:405-559", "photontorch/networks/network.py:722-841", "photontorch/components/"]}
{"id": "C69", "title": "No given range bound is silently ignored", "statement": "If an environment is created, each bound given for the frequency range (f0, f1, wl0, wl1) has an influence on the resulting grid; two bounds for the same end are refused. (False: with num_f and wl0, any value of f1 is accepted and ignored.)", "quantifier": "all argument combinations", "why_tests_cant": "combinations of many optional arguments with arbitrary values", "anchors": ["photontorch/environment/environment.py: Environment.__init__"]}
{"id": "C70", "title": "Bit sequences", "statement": "BitStreamGenerator accepts any sequence of bits, as documented. (True for arrays and tensors; false for lists and tuples, which raise AttributeError.)", "quantifier": "all sequences", "why_tests_cant": "argument kinds", "anchors": ["photontorch/nn/nn.py: BitStreamGenerator.forward"]}
{"id": "C71", "title": "Seeds make bit streams reproducible", "statement": "Calling a BitStreamGenerator twice with the same seed gives the same stream, whatever was generated before. (False if the seed equals the one given to the constructor.)", "quantifier": "all seeds, generator states, numbers of bits", "why_tests_cant": "all histories", "anchors": ["photontorch/nn/nn.py: BitStreamGenerator.forward"]}
{"id": "C72", "title": "Precedence of rates", "statement": "For the bit and sample rates of generator, losses and detectors the argument of the call counts before the current environment, which counts before the constructor's argument.", "quantifier": "all combinations", "why_tests_cant": "combinations", "anchors": ["photontorch/nn/nn.py: BitStreamGenerator.forward", "photontorch/nn/nn.py: MSELoss.forward", "photontorch/detectors/lowpassdetector.py: LowpassDetector.forward"]}
{"id": "C73", "title": "Negative warm-ups are refused", "statement": "A negative number of warm-up bits raises ValueError. (False for -1 and -2, which become 0 by double rounding towards zero; true from -3 on when there are at least two samples per bit.)", "quantifier": "all warm-ups and rates", "why_tests_cant": "boundary values", "anchors": ["photontorch/nn/nn.py: _Loss.__init__", "photontorch/nn/nn.py: MSELoss.forward"]}
{"id": "C74", "title": "Amplifiers do not reflect", "statement": "A semiconductor optical amplifier (Soa, AgrawalSoa) sends nothing back out of its input port. (False: the field that enters is sent back in full.)", "quantifier": "all circuits, inputs and time steps", "why_tests_cant": "the reflected wave only shows in circuits with something before the amplifier", "anchors": ["photontorch/components/soas.py: BaseSoa.action", "photontorch/components/soas.py: BaseSoa.set_S"]}
{"id": "C75", "title": "Gain of an AgrawalSoa is bounded", "statement": "Without light the logarithmic gain of an AgrawalSoa after n steps is g0 L (1 - (1 - dt/tc)^n). With light of power at most Pmax it stays between 0 and g0 L as long as dt/tc (1 + Pmax/Psat exp(g0 L)) <= 1. (False for time steps above the carrier lifetime.)", "quantifier": "all parameters, inputs and numbers of steps", "why_tests_cant": "unbounded time and real parameters", "anchors": ["photontorch/components/soas.py: AgrawalSoa.dhdt", "photontorch/components/soas.py: BaseSoa.action"]}
{"id": "C76", "title": "A photodetector without noise is a low-pass detector", "statement": "When all random numbers are zero a Photodetector returns what a LowpassDetector with the same settings returns, values and exceptions alike. (False when the detected power has exactly two time steps.) Otherwise the noise added before filtering is the random number times sqrt(4 kT f / R + 2 q f (P + dark)), P the detected power.", "quantifier": "all signals, settings, filter designs and environments", "why_tests_cant": "noise is random and shapes are unbounded", "anchors": ["photontorch/detectors/photodetector.py: Photodetector.forward", "photontorch/detectors/lowpassdetector.py: LowpassDetector.forward"]}
{"id": "C77", "title": "Cutoff frequencies above half of the sample rate are refused", "statement": "A detector is constructed exactly when twice its cutoff frequency does not exceed its sample rate; detection raises ValueError when twice the cutoff frequency exceeds the sample rate in force (argument, environment or detector), and returns the unfiltered current when they are equal.", "quantifier": "all rates, environments and signals", "why_tests_cant": "universal over rates and sources of the rate", "anchors": ["photontorch/detectors/lowpassdetector.py: LowpassDetector.__init__", "photontorch/detectors/lowpassdetector.py: LowpassDetector.forward"]}
{"id": "C78", "title": "Losses compare (time, detector) predictions detector by detector", "statement": "A prediction given as a (time, detector) matrix has zero MSELoss against the same values given with all four dimensions. (False: the columns are taken for batches and broadcast against the detectors.)", "quantifier": "all predictions", "why_tests_cant": "all shapes and values", "anchors": ["photontorch/nn/nn.py: _Loss._broadcast_prediction_target"]}
{"id": "C79", "title": "loss plots", "statement": "_Loss.plot draws the tensor behind the warm-up and latency samples with the time axis in the requested unit, for every unit its own error message lists as valid.", "quantifier": "all tensors, latencies, rates and units", "why_tests_cant": "all tensors and rates; the tests only plot with the default unit", "anchors": ["photontorch/nn/nn.py: _Loss.plot"]}
{"id": "C80", "title": "network graphs", "statement": "graph() has one node per component of the network and one edge per connection, between the two components the connection wires.", "quantifier": "all networks", "why_tests_cant": "all networks; tests only check that a graph object is returned", "anchors": ["photontorch/networks/visualize.py: graph"]}
{"id": "C81", "title": "plot axis", "statement": "The numbers plot() puts on its horizontal axis, read in the unit written in the axis label, are the times (or wavelengths) of the environment, and every simulated time scale can be plotted.", "quantifier": "all environments and arrays", "why_tests_cant": "all time scales", "anchors": ["photontorch/networks/visualize.py: plot"]}
{"id": "C82", "title": "Reck meshes are universal", "statement": "Every unitary NxN matrix is the transmission matrix of a terminated ReckNxN mesh of lossless default components for some choice of the phases, whatever the lengths and indices of the waveguides and interferometers are.", "quantifier": "all sizes N >= 2, all unitary matrices, all wavelengths, all waveguide lengths and indices", "why_tests_cant": "all unitary matrices and all sizes; the claim is the existence of parameters", "anchors": ["photontorch/networks/reck.py: ReckNxN", "photontorch/components/mzis.py: Mzi", "photontorch/components/waveguides.py: Waveguide"]}
{"id": "C83", "title": "Clements meshes are universal", "statement": "Every unitary NxN matrix is the transmission matrix of a terminated ClementsNxN mesh of lossless default components for some choice of the phases, whatever the capacity is.", "quantifier": "all sizes N >= 2, all capacities, all unitary matrices, all wavelengths, all waveguide lengths and indices", "why_tests_cant": "all unitary matrices, sizes and capacities; the claim is the existence of parameters", "anchors": ["photontorch/networks/clements.py: ClementsNxN", "photontorch/components/mzis.py: Mzi", "photontorch/components/waveguides.py: Waveguide"]}
{"id": "C84", "title": "passive circuits settle", "statement": "In a closed circuit of passive components whose sources are constant from some time on, the fields detected in the time domain converge to the ones the frequency-domain simulation gives for that constant.", "quantifier": "all circuits of passive components, nestings, delays, sampling rates, sources and numbers of steps", "why_tests_cant": "a limit over unboundedly many steps, for all circuits", "anchors": ["photontorch/networks/network.py: forward, step, initialize"]}
{"id": "C85", "title": "a network has the buffers of the circuit it stands for", "statement": "Whatever a program does to networks and components (creation, assignment, link, terminate, with-blocks), a network's buffers are always those of the circuit obtained by replacing every component by its own components and connections.", "quantifier": "all finite programs over shared network objects", "why_tests_cant": "aliasing: the effect of a statement on other objects depends on the whole history of the program", "anchors": ["photontorch/networks/network.py: __init__, link, _set_buffers, terminate"]}
{"id": "C86", "title": "terminate leaves everything else alone and unterminate undoes it", "statement": "A successful terminate changes the components, connections and buffers of no existing network, gives a new network, and unterminate of that network is the original object.", "quantifier": "all reachable program states, networks, names and lists of terms", "why_tests_cant": "the states are those of arbitrary programs, with shared lists between networks and copies", "anchors": ["photontorch/networks/network.py: terminate, unterminate"]}
{"id": "C87", "title": "only link changes a circuit", "statement": "The components, connections and buffers of a network change only when link of that network, or of a shallow copy of it, is called; no other statement of a program, on whatever objects, changes them.", "quantifier": "all reachable states and all continuations of the program", "why_tests_cant": "quantifies over all programs and all other objects", "anchors": ["photontorch/networks/network.py: link, _set_buffers, add_component, terminate"]}
{"id": "C88", "title": "statements do not add components to networks they do not mention", "statement": "Creating components and networks, linking and terminating leave the sub-modules of all other networks alone.", "quantifier": "all reachable states and statements", "why_tests_cant": "depends on the stack of with-blocks and on names chosen by terminate", "anchors": ["photontorch/components/component.py: __init__", "photontorch/networks/network.py: terminate, __enter__, current_network"]}
{"id": "C89", "title": "a network can be terminated while it is used elsewhere", "statement": "A network with free ports can be terminated whether or not it is a component of another network.", "quantifier": "all reachable states, networks, names and terms", "why_tests_cant": "a statement about all programs in which the network was linked somewhere before", "anchors": ["photontorch/networks/network.py: terminate, _set_buffers, add_component"]}
{"id": "C90", "title": "components are called as they are used", "statement": "A component that is used in the connections of a network under some name has that name in its name attribute.", "quantifier": "all programs, networks and components", "why_tests_cant": "names are assigned by every network that uses a component, in the order of the program", "anchors": ["photontorch/networks/network.py: _set_buffers, add_component"]}
{"id": "C91", "title": "the realistic coupler follows its expansion in wavelength", "statement": "The scattering of a RealisticDirectionalCoupler is that of an ideal coupler whose angle is the bend coupling plus half the phase difference of even and odd mode, where bend coupling and index difference are the functions with the given value, first and second derivative at the centre wavelength.", "quantifier": "all parameters and wavelengths", "why_tests_cant": "all wavelengths; tests only create the component", "anchors": ["photontorch/components/directionalcouplers.py: RealisticDirectionalCoupler.set_S"]}
{"id": "C92", "title": "carriers are conserved in an Agrawal SOA", "statement": "The rate equation of AgrawalSoa is the balance of carriers: injected by the current, lost with their lifetime, and one used for every photon that the light leaving has more than the light entering.", "quantifier": "all physical parameters, states and inputs", "why_tests_cant": "a physical law over real numbers; tests only run the component", "anchors": ["photontorch/components/soas.py: AgrawalSoa.initialize, dhdt, BaseSoa.action"]}
{"id": "C93", "title": "attributes read back as assigned", "statement": "An attribute assignment to a module is refused with an exception, or reading the attribute afterwards gives the value (for a BoundedParameter the bounded value). (False after a BoundedParameter replaced a Buffer or Parameter.)", "quantifier": "all programs of assignments and deletions, names and kinds of values", "why_tests_cant": "all histories of assignments; tests assign once", "anchors": ["photontorch/nn/nn.py: Module.__setattr__"]}
{"id": "C94", "title": "assignments do not change other attributes", "statement": "Assigning or deleting an attribute of a module does not change what is read for its other attributes. (False of _x for a bounded x.)", "quantifier": "all states, names and values", "why_tests_cant": "all states of the attribute tables", "anchors": ["photontorch/nn/nn.py: Module.__setattr__"]}
{"id": "C95", "title": "exactly the trainable weights are parameters", "statement": "The parameters of a module are the weights of the attributes that can be trained. (False of mirrors that are not trainable and of attributes that were replaced by a BoundedParameter.)", "quantifier": "all constructors and flags", "why_tests_cant": "all constructors, including those of user-defined components", "anchors": ["photontorch/nn/nn.py: Module.__setattr__", "photontorch/components/: constructors"]}
{"id": "C96", "title": "moving a network moves all of it", "statement": "After to(...) every module in the network is on the given device and is_cuda tells whether that is a GPU. (False of to(dtype): the device becomes None.)", "quantifier": "all networks of any depth and all arguments", "why_tests_cant": "networks of any depth; GPU tests are skipped without GPU", "anchors": ["photontorch/nn/nn.py: Module.to, cuda, cpu, is_cuda"]}
{"id": "C97", "title": "terminated networks stay on their device", "statement": "Terminating a network gives a network on the same device. (False on a GPU except for the meshes.)", "quantifier": "all networks, devices and terms", "why_tests_cant": "GPU tests are skipped without GPU", "anchors": ["photontorch/networks/network.py: terminate", "photontorch/networks/clements.py: terminate"]}
{"id": "C98", "title": "gradients accumulate until zero_grad", "statement": "As in torch, the gradients of a network are the sum over the backward passes since the user's last zero_grad(). (False when the network is used again in between.)", "quantifier": "all training programs", "why_tests_cant": "all interleavings of forward and backward passes", "anchors": ["photontorch/networks/network.py: initialize, forward"]}
{"id": "C99", "title": "couplings outside 0..1 are refused", "statement": "Couplers, mirrors and SOAs are created exactly for physical couplings, reflections and amplifications. (False of couplers that are not trainable.)", "quantifier": "all values", "why_tests_cant": "universal over real numbers", "anchors": ["photontorch/components/directionalcouplers.py", "photontorch/components/mirrors.py", "photontorch/components/soas.py"]}
{"id": "C100", "title": "meshes settle exactly after finitely many steps", "statement": "In the time domain, a terminated Clements or Reck mesh with constant sources shows exactly its matrix times the sources after a number of steps that is bounded by its size times the largest delay; for every unitary matrix there are phases with which it shows that matrix times the sources.", "quantifier": "all mesh sizes, capacities, phases, delays, time steps, initial states, earlier inputs and unitary matrices", "why_tests_cant": "universal over sizes, parameters and executions; exact equality, not convergence", "anchors": ["photontorch/networks/clements.py", "photontorch/networks/reck.py", "photontorch/networks/network.py: forward, step"]}
{"id": "C101", "title": "the way a circuit is declared does not matter", "statement": "Two networks that declare the same components and links - under other component names, with the links in another order or from the other end - record the same fields at every detector component for the same fields at every source component, and one can be simulated iff the other can; if all free ports have external numbers, either can be used inside a bigger network.", "quantifier": "all networks, names, orders of links, sources, environments, time steps and initial states", "why_tests_cant": "universal over circuits, permutations and renamings", "anchors": ["photontorch/networks/network.py: link, _set_buffers, set_C, set_S, set_port_order, forward"]}
{"id": "C102", "title": "subnetworks can be replaced and taken apart", "statement": "A subnetwork can be replaced by one that differs only in the internal numbering of its ports, and a network with a subnetwork records the same fields as the flat network of all the components that declares the links of both. More generally, two circuits of any depth with the same plain components joined at the same ports record the same fields.", "quantifier": "all networks, subnetworks, sources, environments, time steps and initial states", "why_tests_cant": "universal over nested circuits and executions", "anchors": ["photontorch/networks/network.py: set_C, set_S, set_delays, set_port_order, free_ports_at"]}
{"id": "C103", "title": "smaller time steps do not change a simulation", "statement": "With n steps in place of each one and sources held for n steps, every detector shows each of its samples n times, and the finer simulation succeeds when the coarse one does. (False for delays that are no whole numbers of steps: they are rounded.)", "quantifier": "all circuits without active components, sources, numbers n, environments", "why_tests_cant": "universal over circuits, inputs and step sizes", "anchors": ["photontorch/networks/network.py:415-424 (delays in time steps), forward, step"]}
{"id": "C104", "title": "old argument names and extra arguments of environments", "statement": "An argument given by its old name has the effect of the new name; giving both is refused; every extra argument becomes an attribute and computed attributes are the same under both names. (False: the old name silently wins; _initialized=True fails.)", "quantifier": "all keyword arguments and values", "why_tests_cant": "universal over sets of arguments and values", "anchors": ["photontorch/environment/environment.py:220-234, 368-419"]}
{"id": "C105", "title": "copies of environments keep extra attributes", "statement": "env.copy(...) keeps the extra attributes of env unless new ones are given, and takes arguments by old and new names alike. (False: attributes with an underscore are lost, booleans become integers.)", "quantifier": "all environments, extra attributes and arguments", "why_tests_cant": "universal over attributes and values", "anchors": ["photontorch/environment/environment.py:130-143, 453-466"]}
{"id": "C106", "title": "set_environment takes one environment", "statement": "set_environment copies the one environment given and refuses more than one positional argument. (False: two are ignored.)", "quantifier": "all argument lists", "why_tests_cant": "universal over arguments", "anchors": ["photontorch/environment/environment.py:584-613"]}
{"id": "C107", "title": "detected fields are differentiable in every parameter", "statement": "Where a simulation succeeds and the scattering coefficients of its components have derivatives with respect to a parameter (which may occur in several components), the simulation succeeds for all parameters nearby, every detected field and power at every time step has a derivative, and that derivative is the field of the same circuit in which the derivative of the scattering matrix, applied to the fields, is injected in place of the source, and in which every active component is replaced by the derivative of its action (both amplifiers of the library have one, also with respect to their trainable amplification).", "quantifier": "all circuits, nested or not, all parameters, sources, wavelengths, time steps and linear solvers", "why_tests_cant": "a statement about limits for all circuits; gradient checks compare finitely many difference quotients", "anchors": ["photontorch/networks/network.py:436-596", "photontorch/networks/network.py:722-845", "photontorch/networks/network.py:840-852", "photontorch/components/soas.py:76-98"]}
{"id": "C108", "title": "trainable parameters give differentiable components", "statement": "For every value that a trainable parameter of a component can take, all scattering coefficients have derivatives with respect to its weight. (False at couplings and reflectivities of exactly 0 or 1, which the constructors accept.)", "quantifier": "all components, parameters and weights", "why_tests_cant": "universal over real weights; the failing values are two limits", "anchors": ["photontorch/components/directionalcouplers.py:50-71", "photontorch/components/mirrors.py:44-60", "photontorch/components/waveguides.py:67-91", "photontorch/components/mzis.py:70-113", "photontorch/nn/nn.py:59-126"]}
{"id": "C109", "title": "simulations are independent of earlier calls", "statement": "After any sequence of simulations, initializations and parameter changes, including calls that raised an exception, a simulation gives the result or the exception of a new network with the same parameters. (False without gradients in the environment of the last successful initialization: a call that fails in another environment leaves new sizes and new component environments beside the old matrices, and components shared with another network keep that network's time step.)", "quantifier": "all networks, histories of calls, environments, parameters, sources and linear solvers", "why_tests_cant": "universal over histories; the damage needs an exception that is caught, or a component shared by two networks, between two calls in the same environment", "anchors": ["photontorch/networks/network.py:363-560", "photontorch/networks/network.py:562-585", "photontorch/networks/network.py:722-841", "photontorch/components/component.py:207-222", "photontorch/components/soas.py:94", "photontorch/components/soas.py:228-236"]}
{"id": "C110", "title": "rounding errors do not blow up", "statement": "In a passive circuit errors are not amplified: if the computed steps deviate from exact steps by eps_0, eps_1, ..., the detected fields at step t deviate by at most eps_0 + ... + eps_t. In floating-point arithmetic with relative error u per operation and stored matrices accurate to d, the deviation at step t is below an explicit bound that is proportional to the light sent in, grows like (1+O(n^3 u + n^2 d))^(3t), and vanishes as u and d do. Nothing overflows: no intermediate result exceeds an explicit multiple of the light sent in, so the results do not depend on what the arithmetic does above it; in single precision circuits of less than 2^20 nodes stay within range if less than 2^78 is sent in.", "quantifier": "all circuits of passive components, environments, sources, time steps, precisions, roundings to nearest, and sequences of computed fields", "why_tests_cant": "universal over rounding errors at every step and over arbitrarily long simulations; a single run shows one sequence of errors", "anchors": ["photontorch/networks/network.py:791-841", "photontorch/networks/network.py:405-559"]}
{"id": "C111", "title": "printed numbers", "statement": "A number printed by repr or str of an environment can be read back with an error of at most 0.05 percent; numbers with four significant digits are printed exactly; what is printed is the closest number with four digits, with the even last digit in case of a tie, in the layout d.ddde+dd; printing keeps the order of numbers, and equal numbers print alike. (Different numbers can print alike.)", "quantifier": "all rational numbers, of any size", "why_tests_cant": "universal over numbers, including ties and carries into the next exponent", "anchors": ["photontorch/environment/environment.py:46-51", "photontorch/environment/environment.py:75-98", "photontorch/environment/environment.py:498-508"]}
{"id": "C112", "title": "printed environments", "statement": "repr lists every public attribute of an environment once, in order, separated by commas; str prints one line per attribute with all values in the same column; the HTML table has one row per attribute with its description and never fails. repr can be evaluated to an equal environment and determines the environment. (The last three are false: a copy with an empty array as extra attribute has no HTML table; what repr prints has arguments that exclude each other; numbers are rounded to four digits.)", "quantifier": "all environments and all keyword arguments, all representations of other objects", "why_tests_cant": "universal over environments and extra attributes; no environment at all can be rebuilt from its repr", "anchors": ["photontorch/environment/environment.py:498-508", "photontorch/environment/environment.py:510-527", "photontorch/environment/environment.py:529-551"]}
{"id": "C113", "title": "printed components", "statement": "What a component prints determines its class and its name.", "quantifier": "all class names and all names, including names with quotes and parentheses", "why_tests_cant": "universal over strings", "anchors": ["photontorch/components/component.py:223-232"]}
{"id": "C114", "title": "drawn networks", "statement": "Drawing a network gives every component exactly one text, its name, at its position and in the box of the nearest class that has one; between two nodes there are as many lines as connections, each from one node to the other by a middle point at half the distance and at most 45 degrees off; parallel lines with different random numbers differ. draw=False draws nothing, and all connections and nodes can be seen. (The last sentence is false: the argument is ignored, a connection of a component with itself is a point under its name, external ports have no text.)", "quantifier": "all buildable networks, all positions, random numbers and classes", "why_tests_cant": "universal over networks, layouts and random numbers", "anchors": ["photontorch/networks/visualize.py:194-199", "photontorch/networks/visualize.py:202-256", "photontorch/networks/visualize.py:259-287", "photontorch/networks/network.py:1019-1026"]}
{"id": "C115", "title": "weights of MMIs", "statement": "An MMI accepts no weights, complex or real numpy matrices, real matrices as tensors, and tensors with real and imaginary parts along the first axis, and then scatters waves by these weights forth and by their transpose back; it refuses everything else. (False: numpy arrays with the parts along the first axis are refused although the error message asks for them; tensors with a single part are accepted and used as real and imaginary part; tensors with more parts fail only at the initialization.)", "quantifier": "all weights of all shapes, all incoming waves", "why_tests_cant": "universal over shapes and weights", "anchors": ["photontorch/components/mmis.py:45-83", "photontorch/components/mmis.py:85-89"]}
{"id": "C116", "title": "deep copies of bounded parameters", "statement": "A deep copy of a module has the same names; each bounded parameter is copied with its weight, bounds and requires_grad; entries that are one parameter stay one; later changes of the original or the copy do not reach the other.", "quantifier": "all modules, all patterns of sharing, all later writes", "why_tests_cant": "universal over sharing patterns and writes", "anchors": ["photontorch/nn/nn.py:121-125"]}
{"id": "C117", "title": "a nested circuit is its plain components and their joins", "statement": "At any depth of nesting, a built circuit has exactly one port for every port of the plain components it uses, with that component's flags, delays and scattering; it scatters nothing between different components; and two ports are wired exactly when they are wired inside their component or some connection, in whatever subnetwork, joins them.", "quantifier": "all circuits of any depth in which each port order is a permutation of the ports", "why_tests_cant": "universal over trees of networks of any depth and width", "anchors": ["photontorch/networks/network.py: set_C, set_S, set_delays, set_port_order, free_ports_at, parse_connection"]}
{"id": "C118", "title": "the all-pass filter of the example responds as its formula says", "statement": "The calls of the class AllPass of the first example build a network without exception; every simulation of it obeys the recursion of a ring behind a coupler, d(t) = tau z d(t-L) + zi zt (tau s(t-D) - z s(t-D-L)); in the frequency domain the detected power is the one the notebook's function frequency computes; without loss all power passes; at critical coupling and on resonance none does; simulations exist unless light comes back unchanged at once.", "quantifier": "all guides, couplings, losses, phases, wavelengths, time steps, sources, batches and sound solvers", "why_tests_cant": "universal over real parameters, sources and the number of time steps", "anchors": ["examples/01_all_pass_filter.ipynb", "photontorch/networks/network.py: link, forward", "photontorch/components/waveguides.py: set_S, set_delays", "photontorch/components/directionalcouplers.py: set_S"]}
{"id": "C119", "title": "the add-drop filter of the example drops, passes and conserves light", "statement": "The calls of the second example build a network with three detectors which show, in this order, what is dropped, what passes and what leaves the add port. Every simulation obeys the recursions of a ring between two couplers; in the frequency domain pass = (t1 - t2 z)/(1 - t1 t2 z) s, drop = - sqrt(k1 k2) z1/(1 - t1 t2 z) s and nothing leaves the add port; without loss passed and dropped power add up to the power of the source; with equal couplers everything is dropped on resonance.", "quantifier": "all couplings, guides, phases, wavelengths, time steps, sources, batches and sound solvers", "why_tests_cant": "universal over real parameters, sources and the number of time steps", "anchors": ["examples/02_add_drop_filter.ipynb", "tests/test_networks.py: test_network_plot", "photontorch/networks/network.py: link, forward", "photontorch/components/waveguides.py: set_S, set_delays", "photontorch/components/directionalcouplers.py: set_S"]}
{"id": "C120", "title": "the interferometer of the XOR example interferes a signal with its own past", "statement": "The calls of the ninth example build a network with one source and one detector. At every time step of every simulation the detector shows t1 t2 z2 s(t - D2) - sqrt(k1 k2) z1 s(t - D1), D1 and D2 being the delays of the two arms in time steps. Every simulation succeeds. With equal splitting and lossless arms in phase the detected power is one quarter of the exclusive or of the two delayed bits of the stream.", "quantifier": "all couplings, guides, phases, wavelengths, time steps, sources, batches, bit streams and sound solvers", "why_tests_cant": "universal over real parameters, bit streams and the number of time steps", "anchors": ["examples/09_XOR_task_with_MZI.ipynb", "photontorch/networks/network.py: link, forward", "photontorch/components/waveguides.py: set_S, set_delays", "photontorch/components/directionalcouplers.py: set_S"]}
{"id": "C121", "title": "the nested circuit of the introduction is a ring behind a coupler, and what training it can reach", "statement": "In the introduction the inner network has the free ports 0 and 1 and the circuit around it has none. Every simulation of the circuit obeys the recursion of a ring behind a coupler; in the frequency domain the detector shows (t - z)/(1 - t z) s. The simulations exist unless light circulates unchanged in a ring without delay. The transmission, which the notebook trains towards zero, is zero exactly when the factor of the ring equals the transmission of the coupler.", "quantifier": "all couplings, guides, phases, wavelengths, time steps, sources, batches and sound solvers", "why_tests_cant": "universal over real parameters, sources and the number of time steps", "anchors": ["examples/00_introduction_to_photontorch.ipynb", "photontorch/networks/network.py: __setattr__, link, _set_buffers, forward", "photontorch/components/waveguides.py: set_S, set_delays", "photontorch/components/directionalcouplers.py: set_S"]}
