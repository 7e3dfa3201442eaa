-Q theories Verif
theories/Arith.v
theories/Geom.v
theories/Monad.v
theories/Tree.v
theories/Heapq.v
theories/State.v
theories/Sweep.v
theories/Finish.v
theories/DecArith.v
theories/ExecTests.v
theories/HeapqProofs.v
theories/EventOrder.v
theories/TreeProofs.v
theories/TreeOps.v
theories/TreeAvl.v
theories/TreeInsert.v
theories/TreeDelete.v
theories/NodeFacts.v
theories/FindFacts.v
theories/TreeSearch.v
theories/Beach.v
theories/SweepBase.v
theories/Dcel.v
theories/SweepInv.v
theories/SweepTrans.v
theories/SweepSite.v
theories/SweepCircle.v
theories/SweepLoop.v
theories/FinishEdges.v
theories/FinishBorder.v
theories/Spec.v
theories/SpecFinish.v
theories/TreeFacts.v
theories/QueueFacts.v
theories/SweepFacts.v
theories/FinishFacts.v
theories/FinishDiagram.v
theories/FinishLinks.v
theories/CleanUp.v
theories/FinishMain.v
theories/FinishOne.v
theories/DiagramFacts.v
theories/RArith.v
theories/DecLaws.v
theories/Witness.v
theories/NodeWitness.v
theories/CellGeom.v
theories/CellTrail.v
theories/CellBorder.v
theories/CellFirst.v
theories/CellArea.v
theories/PropTree.v
theories/PropNodes.v
theories/PropSweep.v
theories/FinishWitness.v
theories/PropFinish.v
theories/ChoiceFacts.v
theories/Reuse.v
theories/PropUse.v
theories/GeomReal.v
theories/AngleReal.v
theories/EdgeReal.v
theories/Envelope.v
theories/EnvelopeEvents.v
theories/EnvelopeRow.v
theories/SweepReal.v
theories/SweepRealStep.v
theories/SweepRealLoop.v
theories/SweepRealFacts.v
theories/SweepTotal.v
theories/AreaReal.v
theories/PolyReal.v
theories/ConvexReal.v
theories/PropGeom.v
theories/Observers.v
theories/SpecObservers.v
theories/ObserverFacts.v
theories/PropObservers.v
theories/Circle.v
theories/CircleReal.v
theories/CircleFacts.v
theories/PropCircle.v
theories/FinishReal.v
theories/PropReal.v
theories/VoronoiGeom.v
theories/VoronoiStep.v
theories/VoronoiUnique.v
theories/Voronoi.v
theories/SpecVoronoi.v
theories/VoronoiFacts.v
theories/PropVoronoi.v
theories/EnvelopeFacts.v
theories/ClipGeom.v
theories/ClipBeach.v
theories/ClipVoronoi.v
theories/ClipFinal.v
theories/SpecClip.v
theories/PropClip.v
theories/PropCells.v
theories/PropEnvelope.v
theories/ArcSet.v
theories/Visual.v
theories/VisualReal.v
theories/SpecVisual.v
theories/VisualEdges.v
theories/VisualFacts.v
theories/CellDraw.v
theories/DrawAll.v
theories/DrawEvent.v
theories/PropVisual.v
theories/PropDrawing.v
theories/CellClean.v
theories/PropClean.v
theories/Watch.v
theories/SpecWatch.v
theories/WatchTree.v
theories/WatchKeep.v
theories/WatchFacts.v
theories/WatchSound.v
theories/WatchDraw.v
theories/WatchVoronoi.v
theories/WatchLog.v
theories/PropWatch.v
theories/PropEvents.v
theories/Navigate.v
theories/NavFacts.v
theories/PropNavigate.v
theories/SpecFigure.v
theories/FigureFacts.v
theories/PropFigure.v
theories/SpecMove.v
theories/CellSides.v
theories/SideFacts.v
theories/MoveGeom.v
theories/PropMove.v
theories/QueryFacts.v
theories/PropQueries.v
theories/SpecCircle.v
theories/CircleClip.v
theories/CircleVoronoi.v
theories/PropCircleClip.v
theories/SpecNeighbours.v
theories/NeighbourFacts.v
theories/PropNeighbours.v
theories/FarthestFacts.v
theories/CountFacts.v
theories/PropFarthest.v
theories/GreedyFacts.v
theories/PropGreedy.v
theories/Rounding.v
theories/PropRounding.v
theories/ShrinkFacts.v
theories/PropShrink.v
theories/SpecParts.v
theories/PartFacts.v
theories/PropParts.v
theories/Repr.v
theories/PropRepr.v
theories/Picture.v
theories/SpecPicture.v
theories/PropPicture.v
theories/PropRim.v
