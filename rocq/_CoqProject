-Q theories Verif
theories/Machine.v
theories/F64.v
theories/Layouts.v
theories/Memory.v
theories/Matrix.v
theories/MatMul.v
theories/MachineFacts.v
theories/Spec.v
theories/LayoutFacts.v
theories/LayoutProofs.v
theories/Properties_Layouts.v
theories/MemoryFacts.v
theories/MatrixSpec.v
theories/AccessFacts.v
theories/ZScalar.v
theories/AccessProofs.v
theories/AccessExact.v
theories/Properties_Access.v
theories/ConstructorProofs.v
theories/Properties_Constructors.v
theories/BlockProofs.v
theories/BlockExact.v
theories/Properties_Blocks.v
theories/ExprSpec.v
theories/ExprProofs.v
theories/Properties_Expr.v
theories/ProductSpec.v
theories/ProductProofs.v
theories/ProductExact.v
theories/Properties_Products.v
theories/ReleaseProofs.v
theories/Properties_Release.v
theories/AlgebraSpec.v
theories/AlgebraProofs.v
theories/Properties_Algebra.v
theories/SliceSpec.v
theories/SliceProofs.v
theories/Properties_Slices.v
theories/Program.v
theories/HistorySpec.v
theories/ModeProofs.v
theories/HistoryProofs.v
theories/HistorySafety.v
theories/ModeSafety.v
theories/Properties_Histories.v
theories/Borrow.v
theories/BorrowFacts.v
theories/BorrowProofs.v
theories/OwnerProofs.v
theories/AliasProofs.v
theories/Properties_Borrow.v
theories/Dealloc.v
theories/DeallocProofs.v
theories/Properties_Dealloc.v
theories/Threads.v
theories/ThreadProofs.v
theories/Properties_Threads.v
theories/ThreadEntries.v
theories/Properties_ThreadEntries.v
theories/Abstract.v
theories/AbstractFacts.v
theories/AbstractProofs.v
theories/Properties_Abstract.v
theories/F64Facts.v
theories/F64Proofs.v
theories/Properties_F64.v
theories/TestSuite.v
theories/TestProofs.v
theories/Properties_Tests.v
theories/BlockedSpec.v
theories/BlockedProofs.v
theories/Properties_Blocked.v
theories/Repaired.v
theories/RepairedProofs.v
theories/Properties_Repaired.v
theories/AdmitSpec.v
theories/AdmitProofs.v
theories/Properties_Admit.v
theories/Interleave.v
theories/InterleaveProofs.v
theories/InterleaveMachine.v
theories/InterleaveOrders.v
theories/Properties_Interleave.v
theories/Properties_InterleaveSteps.v
theories/InterleaveEntries.v
theories/Properties_InterleaveEntries.v
theories/RepairedHistory.v
theories/RepairedHistoryProofs.v
theories/Properties_RepairedHistory.v
theories/Guarded.v
theories/GuardedProofs.v
theories/Properties_Guarded.v
theories/FloatFacts.v
theories/Floats.v
theories/FloatProofs.v
theories/Properties_Floats.v
theories/Documentation.v
theories/DocumentationProofs.v
theories/Properties_Documentation.v
theories/Types.v
theories/TypesProofs.v
theories/Properties_Types.v
theories/Generic.v
theories/GenericSpec.v
theories/GenericProofs.v
theories/GenericCrate.v
theories/Properties_Generic.v
theories/AccuracySpec.v
theories/AccuracyFacts.v
theories/AccuracyProofs.v
theories/Properties_Accuracy.v
theories/TraceSpec.v
theories/TraceProofs.v
theories/Properties_Trace.v
theories/Flat.v
theories/FlatProofs.v
theories/FlatHistory.v
theories/FlatVisits.v
theories/FlatProducts.v
theories/Properties_Flat.v
theories/FlatThreads.v
theories/FlatFits.v
theories/FlatMachine.v
theories/FlatThreadProofs.v
theories/Properties_FlatThreads.v
theories/OutOfMemory.v
theories/OutOfMemoryProofs.v
theories/Properties_OutOfMemory.v
theories/FlatDrops.v
theories/FlatDropOwners.v
theories/FlatDropMachine.v
theories/FlatDropProofs.v
theories/FlatPrograms.v
theories/FlatProgramProofs.v
theories/FlatScopes.v
theories/FlatScopeProofs.v
theories/Properties_FlatDrops.v
theories/Properties_FlatPrograms.v
theories/Properties_FlatScopes.v
theories/FlatJoins.v
theories/FlatJoinProofs.v
theories/Properties_FlatJoins.v
theories/FlatRounds.v
theories/FlatRoundProofs.v
theories/Properties_FlatRounds.v
theories/Properties_Visits.v
theories/Corrected.v
theories/CorrectedProofs.v
theories/Properties_Corrected.v
theories/Stacked.v
theories/StackedFacts.v
theories/StackedCell.v
theories/StackedNew.v
theories/StackedProofs.v
theories/StackedHistory.v
theories/StackedSplit.v
theories/StackedEvents.v
theories/StackedReads.v
theories/StackedRules.v
theories/Properties_Stacked.v
